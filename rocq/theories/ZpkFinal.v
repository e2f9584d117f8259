(** Proofs of the theorems of ZpkProps.v. *)
From Coq Require Import Reals Lra.
From stdpp Require Import base tactics list numbers.
From Verif Require Import Fld Py Herm OptModel OptRot ElecProofs SigModel SigSpec SigProofs PdProofs ZpkModel ZpkSpec ZpkProofs.
Local Open Scope fld_scope.
Add Field FFc : (f_theory C_fld).

Lemma C91_product_lem l r s : zpk_mult l = Ok r -> (forall t, t ∈ l -> regular t s) -> transfer r s = product ((fun t => transfer t s) <$> l).
Proof.
  intros E Hl. assert (Hn : l <> []) by (by intros ->). rewrite zpk_mult_eq in E by done. injection E as <-.
  rewrite mult_fold; [|by apply not_elem_of_nil|done]. rewrite start_1. ring.
Qed.
Lemma C91_quotient_lem n d s : regular n s -> nonzero d s -> transfer (zpk_div n d) s = transfer n s / transfer d s.
Proof. apply div_transfer. Qed.
Lemma C91_real_lem t s : real_filter t -> regular t s -> transfer t (cconj s) = cconj (transfer t s).
Proof. apply transfer_conj. Qed.
Lemma C91_sorted_lem tiny l re pos neg : (0 < tiny)%R -> (forall r, r ∈ l -> resolved tiny r) -> closed l -> sort_roots tiny l = (re, pos, neg) ->
  re ++ pos ++ neg ≡ₚ l /\ neg ≡ₚ cconj <$> pos /\ (forall r, r ∈ re -> r.2 = 0%R) /\ (forall r, r ∈ pos -> (0 < r.2)%R).
Proof.
  intros Ht Hr Hc. rewrite sort_eq. intros [= <- <- <-]. split; [|split; [|split]].
  - rewrite (sort_closed tiny l) by done. by apply sorted_all.
  - by apply sort_closed.
  - intros r (r' & -> & _)%elem_of_list_fmap. done.
  - intros r [[_ Hp] _]%elem_of_list_filter. done.
Qed.
Lemma C91_convert_lem tiny UGF t r : (0 < tiny)%R -> UGF <> 0%R -> closed (t_z t) -> closed (t_p t) -> (forall r, r ∈ t_z t ++ t_p t -> resolved tiny r) ->
  nonzero t (ci * cre UGF) -> zpk_convert tiny UGF t OutRational = RRational r ->
  forall f, regular t (ci * cre f) -> rational_func r f = - ((C_abs (transfer t 0) : C_fld) / transfer t 0 * (transfer t (ci * cre f) / (C_abs (transfer t (ci * cre UGF)) : C_fld))).
Proof.
  intros Ht HU Hz Hp Hr (Hn1 & Hn2 & Hk) E f Hf. injection E as <-. unfold rational_func. cbn [r_gain r_delay r_zpk r_gain_F]. cbv zeta.
  destruct (Req_EM_T UGF 0) as [|_]; [done|]. change ((zpk2rcpz_dict tiny t).1) with (to_zpk tiny t). rewrite !szp_transfer by done.
  assert (Z0 : (0 : C_fld) ∉ t_z t) by (intros H; destruct (Hr 0) as [H0 _]; [by apply elem_of_app; left|done]).
  assert (P0 : (0 : C_fld) ∉ t_p t) by (intros H; destruct (Hr 0) as [H0 _]; [by apply elem_of_app; right|done]).
  assert (HT : forall s, s ∉ t_z t -> s ∉ t_p t -> transfer t s <> 0).
  { intros s H1 H2. rewrite transfer_eq. apply pr_neq_0 in H1, H2. apply div_neq_0; [by apply cmul_neq_0|done]. }
  assert (T0 : transfer t 0 <> 0) by (by apply HT). assert (TU : transfer t (ci * cre UGF) <> 0) by (by apply HT).
  rewrite abs_div by done. change (C_opp (1%R, 0%R)) with (- (1) : C_fld). apply abs_neq_0 in T0 as T0'. apply abs_neq_0 in TU as TU'. revert T0' TU'.
  generalize (C_abs (transfer t 0) : C_fld) (C_abs (transfer t (ci * cre UGF)) : C_fld). intros a b Ha Hb. field. done.
Qed.
(** the sign *)
Lemma abs_real (x : C_fld) : real_number x -> x <> 0 -> (C_abs x : C_fld) / x = 1 \/ (C_abs x : C_fld) / x = - (1).
Proof.
  intros Hr Hx. destruct x as [a b]. assert (b = 0%R) as ->.
  { unfold real_number, cconj, C_conj in Hr. injection Hr. lra. }
  assert (Ha : a <> 0%R) by (intros ->; done).
  assert (E : (C_abs (a, 0%R) : C_fld) = cre (Rabs a)).
  { unfold C_abs, C_sq, cre, C_of. cbn [fst snd]. f_equal. rewrite Rmult_0_r, Rplus_0_r. apply sqrt_Rsqr_abs. }
  rewrite E. change ((a, 0%R) : C_fld) with (cre a). assert (Hc : cre a <> 0) by (by apply cre_neq_0).
  destruct (Rle_dec 0 a) as [Hp|Hp].
  - left. rewrite Rabs_pos_eq by done. field. done.
  - right. rewrite Rabs_left by lra. rewrite cre_opp. field. done.
Qed.
Lemma C91_sign_lem t : real_filter t -> nonzero t 0 -> (C_abs (transfer t 0) : C_fld) / transfer t 0 = 1 \/ (C_abs (transfer t 0) : C_fld) / transfer t 0 = - (1).
Proof.
  intros Hf (H1 & H2 & Hk). apply abs_real.
  - unfold real_number. rewrite <- transfer_conj by done. f_equal. exact (conj_0 C_herm).
  - rewrite transfer_eq. apply pr_neq_0 in H1, H2. apply div_neq_0; [by apply cmul_neq_0|done].
Qed.
Lemma C91_sign_refuted_lem tiny UGF t : zpk_convert tiny UGF (Tri (t_z t) (t_p t) (- t_k t)) OutRational = zpk_convert tiny UGF t OutRational /\
  forall s, regular t s -> transfer (Tri (t_z t) (t_p t) (- t_k t)) s = - transfer t s.
Proof.
  split; [unfold zpk_convert; do 2 f_equal; fold (to_zpk tiny t) (to_zpk tiny (Tri (t_z t) (t_p t) (- t_k t))); by rewrite !to_zpk_eq|].
  intros s Hr%regular_pr. rewrite !transfer_eq. cbn [t_k t_z t_p]. field. done. Qed.
(** a root at the origin disappears *)
Lemma C91_origin_refuted_lem tiny UGF : (0 < tiny)%R -> UGF <> 0%R -> exists t r, real_filter t /\ nonzero t (ci * cre UGF) /\ zpk_convert tiny UGF t OutRational = RRational r /\
  (forall f, rational_func r f = - (1)) /\ forall f, f <> 0%R -> regular t (ci * cre f) /\ transfer t (ci * cre f) = 1 / (ci * cre f).
Proof.
  intros Ht HU. exists (Tri [] [0 : C_fld] 1). eexists. split; [|split; [|split; [reflexivity|split]]].
  - split; [apply closed_nil|]. split; [apply (closed_real 0)|]. exact cconj_1.
  - split; [|split; [apply not_elem_of_nil|exact (f1_neq_0 (K := C_fld))]]. cbn [t_p]. intros E%elem_of_list_singleton. apply fmul_integral in E as [E|E]; [by apply ci_neq_0|]. by apply (cre_neq_0 UGF).
  - intros f. unfold rational_func. cbn [r_gain r_delay r_zpk r_gain_F]. cbv zeta. destruct (Req_EM_T UGF 0) as [|_]; [done|].
    assert (Es : (zpk2rcpz_dict tiny (Tri [] [0 : C_fld] 1)).1 = Zpk [] [] [] []).
    { change ((zpk2rcpz_dict tiny (Tri [] [0 : C_fld] 1)).1) with (to_zpk tiny (Tri [] [0 : C_fld] 1)). rewrite to_zpk_eq. cbn [t_z t_p].
      assert (Eu : unresolved tiny 0 = false).
      { unfold unresolved. destruct (Req_EM_T _ _) as [|Hn]; [done|]. exfalso. by apply Hn. }
      rewrite !filter_cons. rewrite (decide_False (P := isre tiny 0)) by (unfold isre; congruence).
      rewrite (decide_False (P := ispos tiny 0)); [done|]. intros [_ Hl]. cbn in Hl. lra. }
    rewrite Es. assert (Ez : forall g, szp (Zpk [] [] [] []) g = 1).
    { intros g. unfold szp. cbn [zeros_r zeros_c poles_r poles_c root_xfer root_xfer2]. field. exact (f1_neq_0 (K := C_fld)). }
    rewrite !Ez. assert (Ea : (C_abs (1 : C_fld) : C_fld) = 1) by (rewrite <- cis_0; by rewrite abs_cis, cis_0). rewrite Ea. field. exact (f1_neq_0 (K := C_fld)).
  - intros f Hf. assert (Hn : ci * cre f <> 0) by (intros E; apply fmul_integral in E as [E|E]; [by apply ci_neq_0|by apply (cre_neq_0 f)]).
    split; [by intros E%elem_of_list_singleton|]. rewrite transfer_eq. cbn [t_k t_z t_p]. unfold pr. cbn [fprod foldr].
    change (1 * 1 / ((ci * cre f - 0) * 1) = 1 / (ci * cre f)). revert Hn. generalize (ci * cre f). intros x Hn. field. done.
Qed.

(** the scaled designs *)
Definition scaled (c : C_fld) (t : tri) : tri := Tri ((fun r => c * r) <$> t_z t) ((fun r => c * r) <$> t_p t) (c * t_k t).
Lemma pr_scaled c s l : c <> 0 -> pr s ((fun r => c * r) <$> l) = fprod (fun _ => c) l * pr (s / c) l.
Proof.
  intros Hc. unfold pr. rewrite fprod_map. rewrite <- fprod_mul. apply fprod_ext. intros r _. field. done.
Qed.
Lemma scale_eq F sh t : scale_to F sh t = Tri (t_z (scaled (cre (F / sh)) t)) (t_p (scaled (cre (F / sh)) t)) (t_k (scaled (cre (F / sh)) t) / (C_abs (transfer (scaled (cre (F / sh)) t) (ci * cre F)) : C_fld)).
Proof. unfold scale_to. cbv zeta. rewrite freqresp_eq. done. Qed.
Lemma scaled_root c s (l : list C_fld) : c <> 0 -> s ∉ l -> c * s ∉ (fun r => c * r) <$> l.
Proof.
  intros Hc Hs (r & E & Hr)%elem_of_list_fmap. apply Hs. replace s with r; [done|]. transitivity (c * r / c); [field; done|]. rewrite <- E. field. done.
Qed.
Lemma scale_cre F sh : F <> 0%R -> sh <> 0%R -> cre (F / sh) <> 0 /\ cre (F / sh) * (ci * cre sh) = ci * cre F.
Proof.
  intros HF Hs. split.
  - apply cre_neq_0. apply Rmult_integral_contrapositive. split; [done|]. by apply Rinv_neq_0_compat.
  - replace (cre (F / sh) * (ci * cre sh)) with (ci * (cre (F / sh) * cre sh)) by ring. rewrite <- cre_mul. do 2 f_equal. field. done.
Qed.
Lemma scaled_nonzero c t s : c <> 0 -> nonzero t s -> nonzero (scaled c t) (c * s).
Proof.
  intros Hc (H1 & H2 & H3). split; [by apply scaled_root|]. split; [by apply scaled_root|]. cbn [scaled t_k]. by apply cmul_neq_0.
Qed.
Lemma transfer_neq_0 t s : nonzero t s -> transfer t s <> 0.
Proof.
  intros (H1 & H2 & H3). rewrite transfer_eq. apply pr_neq_0 in H1, H2. apply div_neq_0; [by apply cmul_neq_0|done].
Qed.
Lemma C91_unity_lem F sh t : F <> 0%R -> sh <> 0%R -> nonzero t (ci * cre sh) ->
  C_abs (transfer (scale_to F sh t) (ci * cre F)) = (1 : C_fld).
Proof.
  intros HF Hs Hn. destruct (scale_cre F sh HF Hs) as [Hc Ec]. set (c := cre (F / sh)) in *. apply (scaled_nonzero c) in Hn; [|done]. rewrite Ec in Hn.
  rewrite scale_eq. fold c. set (t' := scaled c t) in *. apply transfer_neq_0 in Hn as Hn'. destruct Hn as (H1 & H2 & H3). apply pr_neq_0 in H1, H2.
  apply abs_neq_0 in Hn' as Ha.
  assert (E : transfer (Tri (t_z t') (t_p t') (t_k t' / (C_abs (transfer t' (ci * cre F)) : C_fld))) (ci * cre F) = transfer t' (ci * cre F) / (C_abs (transfer t' (ci * cre F)) : C_fld)).
  { rewrite (transfer_eq (Tri _ _ _)). cbn [t_k t_z t_p]. revert Ha. generalize (C_abs (transfer t' (ci * cre F)) : C_fld). intros a Ha. rewrite transfer_eq. field. done. }
  rewrite E, abs_div by done. rewrite abs_abs. revert Ha. generalize (C_abs (transfer t' (ci * cre F)) : C_fld). intros a Ha. change (a / a = 1). field. done.
Qed.
Lemma fprod_c_neq (c : C_fld) (l : list C_fld) : c <> 0 -> fprod (fun _ => c) l <> 0.
Proof. intros Hc (r & _ & E)%fprod_0. done. Qed.
Lemma C91_shape_lem F sh t : F <> 0%R -> sh <> 0%R -> nonzero t (ci * cre sh) ->
  exists g, g <> 0 /\ forall s, regular t s -> transfer (scale_to F sh t) (cre (F / sh) * s) = g * transfer t s.
Proof.
  intros HF Hs Hn. destruct (scale_cre F sh HF Hs) as [Hc Ec]. set (c := cre (F / sh)) in *. apply (scaled_nonzero c) in Hn; [|done]. rewrite Ec in Hn.
  rewrite scale_eq. fold c. apply transfer_neq_0, abs_neq_0 in Hn. revert Hn. generalize (C_abs (transfer (scaled c t) (ci * cre F)) : C_fld). intros a Ha.
  exists (c / a * fprod (fun _ => c) (t_z t) / fprod (fun _ => c) (t_p t)). assert (Hp := fprod_c_neq c (t_p t) Hc). split.
  - apply div_neq_0; [apply cmul_neq_0; [by apply div_neq_0|by apply fprod_c_neq]|done].
  - intros s Hr%regular_pr. rewrite !transfer_eq. cbn [scaled t_k t_z t_p]. rewrite !pr_scaled by done.
    assert (E : c * s / c = s) by (field; done). rewrite E. field. done.
Qed.
Lemma cconj_of_div x y : y <> 0 -> real_number x -> real_number y -> real_number (x / y).
Proof. unfold real_number. intros Hy Hx E. by rewrite cconj_div, Hx, E. Qed.
Lemma real_mul x y : real_number x -> real_number y -> real_number (x * y).
Proof. unfold real_number. intros Hx Hy. by rewrite cconj_mul, Hx, Hy. Qed.
Lemma scale_real F sh t : F <> 0%R -> sh <> 0%R -> nonzero t (ci * cre sh) -> real_filter t -> real_filter (scale_to F sh t).
Proof.
  intros HF Hs Hn (Hz & Hp & Hk). destruct (scale_cre F sh HF Hs) as [Hc Ec]. set (c := cre (F / sh)) in *. apply (scaled_nonzero c) in Hn; [|done]. rewrite Ec in Hn.
  apply transfer_neq_0, abs_neq_0 in Hn. rewrite scale_eq. fold c. cbn [t_z t_p t_k].
  assert (Hm : forall r, cconj (c * r) = c * cconj r) by (intros; unfold c; by rewrite cconj_mul, cconj_cre).
  split; [|split]; cbn [scaled t_z t_p t_k].
  - by apply closed_map.
  - by apply closed_map.
  - apply cconj_of_div; [done| |apply cconj_abs]. apply real_mul; [apply cconj_cre|done].
Qed.
Lemma put_real t c : real_filter t -> real_filter c -> real_filter (put t c).
Proof. intros (A1 & A2 & A3) (B1 & B2 & B3). split; [by apply closed_app|]. split; [by apply closed_app|by apply real_mul]. Qed.
Lemma put_inv_real t c : t_k c <> 0 -> real_filter t -> real_filter c -> real_filter (put_inv t c).
Proof. intros Hk (A1 & A2 & A3) (B1 & B2 & B3). split; [by apply closed_app|]. split; [by apply closed_app|by apply cconj_of_div]. Qed.
Lemma start_real : real_filter start.
Proof. split; [apply closed_nil|]. split; [apply closed_nil|exact cconj_1]. Qed.
Lemma add_real t zs ps : real_filter t -> closed zs -> closed ps -> real_filter (Tri (t_z t ++ zs) (t_p t ++ ps) (t_k t)).
Proof. intros (A1 & A2 & A3) Hz Hp. split; [by apply closed_app|]. split; [by apply closed_app|done]. Qed.
Lemma add_real_p t ps : real_filter t -> closed ps -> real_filter (Tri (t_z t) (t_p t ++ ps) (t_k t)).
Proof. intros (A1 & A2 & A3) Hp. split; [done|]. split; [by apply closed_app|done]. Qed.
Lemma mult_real l r : (forall t, t ∈ l -> real_filter t) -> zpk_mult l = Ok r -> real_filter r.
Proof.
  intros Hl E. assert (Hn : l <> []) by (by intros ->). rewrite zpk_mult_eq in E by done. injection E as <-.
  assert (G : forall l acc, real_filter acc -> (forall t, t ∈ l -> real_filter t) -> real_filter (foldl put acc l)).
  { clear. induction l as [|t l IH]; intros acc Ha Hl; [done|]. apply IH; [apply put_real; [done|apply Hl; by left]|intros; apply Hl; by right]. }
  apply G; [apply start_real|done].
Qed.

(** the designs *)
Definition lhp (l : list C_fld) : Prop := forall r : C_fld, r ∈ l -> (r.1 < 0)%R.
Lemma lhp_app l l' : lhp l -> lhp l' -> lhp (l ++ l').
Proof. intros H1 H2 r [Hr|Hr]%elem_of_app; auto. Qed.
Lemma lhp_nil : lhp []. Proof. by intros r ?%elem_of_nil. Qed.
Lemma lhp_cons a l : (a.1 < 0)%R -> lhp l -> lhp (a :: l).
Proof. intros Ha Hl r [->|Hr]%elem_of_cons; auto. Qed.
Lemma good_iff t : good t <-> real_filter t /\ t_k t <> 0 /\ lhp (t_z t) /\ lhp (t_p t).
Proof.
  unfold good, lhp. split; [intros (H1 & H2 & H3)|intros (H1 & H2 & H3 & H4)]; (split; [done|split; [done|]]).
  - split; intros r Hr; apply H3, elem_of_app; auto.
  - intros r [Hr|Hr]%elem_of_app; auto.
Qed.
Lemma start_good : good start.
Proof. apply good_iff. split; [apply start_real|]. split; [exact (f1_neq_0 (K := C_fld))|]. split; apply lhp_nil. Qed.
Lemma put_good t c : good t -> good c -> good (put t c).
Proof.
  rewrite !good_iff. intros (A1 & A2 & A3 & A4) (B1 & B2 & B3 & B4). split; [by apply put_real|]. split; [by apply cmul_neq_0|]. split; by apply lhp_app.
Qed.
Lemma put_inv_good t c : good t -> good c -> good (put_inv t c).
Proof.
  rewrite !good_iff. intros (A1 & A2 & A3 & A4) (B1 & B2 & B3 & B4). split; [by apply put_inv_real|]. split; [by apply div_neq_0|]. split; by apply lhp_app.
Qed.
Lemma add_good t zs ps : good t -> closed zs -> closed ps -> lhp zs -> lhp ps -> good (Tri (t_z t ++ zs) (t_p t ++ ps) (t_k t)).
Proof.
  rewrite !good_iff. intros (A1 & A2 & A3 & A4) Hz Hp Lz Lp. split; [by apply add_real|]. split; [done|]. split; by apply lhp_app.
Qed.
Lemma add_good_p t ps : good t -> closed ps -> lhp ps -> good (Tri (t_z t) (t_p t ++ ps) (t_k t)).
Proof.
  rewrite !good_iff. intros (A1 & A2 & A3 & A4) Hp Lp. split; [by apply add_real_p|]. split; [done|]. split; [done|by apply lhp_app].
Qed.
Lemma on_axis w : (ci * cre w : C_fld).1 = 0%R.
Proof. unfold ci, cre, C_of. cbn. lra. Qed.
Lemma lhp_axis l w : lhp l -> ci * cre w ∉ l.
Proof. intros Hl Hi. apply Hl in Hi. rewrite on_axis in Hi. lra. Qed.
Lemma good_nonzero t w : good t -> nonzero t (ci * cre w).
Proof. rewrite good_iff. intros (A1 & A2 & A3 & A4). split; [by apply lhp_axis|]. split; [by apply lhp_axis|done]. Qed.
Lemma lhp_scale c l : (0 < c)%R -> lhp l -> lhp ((fun r => cre c * r) <$> l).
Proof.
  intros Hc Hl r (r' & -> & Hr)%elem_of_list_fmap. apply Hl in Hr. destruct r' as [a b]. cbn [fst] in Hr.
  assert (E : (cre c * ((a, b) : C_fld) : C_fld).1 = (c * a)%R) by (cbn; lra). rewrite E.
  assert (Hm := Rmult_lt_compat_l c a 0 Hc Hr). lra.
Qed.
Lemma scale_good F sh t : (0 < F)%R -> (0 < sh)%R -> good t -> good (scale_to F sh t).
Proof.
  intros HF Hs Hg. assert (Hn := good_nonzero t sh Hg). apply good_iff. destruct (proj1 (good_iff t) Hg) as (A1 & A2 & A3 & A4).
  assert (HF' : F <> 0%R) by lra. assert (Hs' : sh <> 0%R) by lra.
  assert (Hc : (0 < F / sh)%R) by (apply Rmult_lt_0_compat; [done|by apply Rinv_0_lt_compat]).
  split; [by apply scale_real|]. destruct (scale_cre F sh HF' Hs') as [Hc0 Ec]. rewrite scale_eq. cbn [t_k t_z t_p].
  apply (scaled_nonzero (cre (F / sh))) in Hn; [|done]. rewrite Ec in Hn. split; [|split].
  - apply div_neq_0; [by apply cmul_neq_0|]. by apply abs_neq_0, transfer_neq_0.
  - by apply lhp_scale.
  - by apply lhp_scale.
Qed.
Lemma lhp_rep n a : (a < 0)%R -> lhp (replicate n (cre a)).
Proof. intros Ha r [-> _]%elem_of_replicate. done. Qed.
Lemma closed_rep n a : closed (replicate n (cre a)).
Proof. apply closed_reals. intros r [-> _]%elem_of_replicate. apply cconj_cre. Qed.
Lemma lhp_pair a b a' b' : (a < 0)%R -> (a' < 0)%R -> lhp [cx a b; cx a' b'].
Proof. intros. apply lhp_cons; [done|]. apply lhp_cons; [done|apply lhp_nil]. Qed.
Lemma lhp_one a : (a < 0)%R -> lhp [cre a].
Proof. intros. apply lhp_cons; [done|apply lhp_nil]. Qed.
Section designs.
  Context (cheby1 : nat -> R -> R -> tri) (butter : nat -> R -> tri).
  Context (Hc : forall n r w, good (cheby1 n r w)) (Hb : forall n w, good (butter n w)).
  Lemma ledge_controller_good F sh N : (0 < F)%R -> (0 < sh)%R -> good (ledge_controller cheby1 butter F sh N).
  Proof. intros HF Hs. apply scale_good; [done|done|]. auto using put_good, put_inv_good, start_good. Qed.
  Lemma ledge_boost_good F sh N : (0 < F)%R -> (0 < sh)%R -> good (ledge_boost cheby1 butter F sh N).
  Proof.
    intros HF Hs. apply scale_good; [done|done|]. apply add_good; [auto using put_good, put_inv_good, start_good|..].
    - apply closed_pair. lra.
    - apply closed_pair. lra.
    - apply lhp_pair; lra.
    - apply lhp_pair; lra.
  Qed.
  Lemma cheby_boost_good F sh : (0 < F)%R -> (0 < sh)%R -> good (cheby_boost cheby1 F sh).
  Proof.
    intros HF Hs. apply scale_good; [done|done|]. apply add_good_p; [|apply closed_rep|apply lhp_rep; lra].
    apply add_good; [auto using put_inv_good, start_good|..].
    - apply closed_pair. lra.
    - apply closed_pair. lra.
    - apply lhp_pair; lra.
    - apply lhp_pair; lra.
  Qed.
  Lemma mult_good l : l <> [] -> (forall t, t ∈ l -> good t) -> exists r, zpk_mult l = Ok r /\ good r.
  Proof.
    intros Hn Hl. rewrite zpk_mult_eq by done. eexists. split; [done|].
    assert (G : forall l acc, good acc -> (forall t, t ∈ l -> good t) -> good (foldl put acc l)).
    { clear. induction l as [|t l IH]; intros acc Ha Hl; [done|]. apply IH; [apply put_good; [done|apply Hl; by left]|intros; apply Hl; by right]. }
    apply G; [exact start_good|exact Hl].
  Qed.
  Lemma tri_good z p k : closed z -> closed p -> lhp z -> lhp p -> k <> 0%R -> good (Tri z p (cre k)).
  Proof. intros. apply good_iff. split; [split; [done|]; split; [done|apply cconj_cre]|]. split; [by apply cre_neq_0|done]. Qed.
  Ltac by_design := lazymatch goal with
  | |- good (ledge_controller _ _ _ _ _) => apply ledge_controller_good; lra
  | |- good (ledge_boost _ _ _ _ _) => apply ledge_boost_good; lra
  | |- _ => idtac end.
  Lemma controller1_good UGF sh : (0 < UGF)%R -> (0 < sh)%R -> exists r, controller_10x1e3_20x1e8 cheby1 butter UGF sh = Ok r /\ good r.
  Proof.
    intros HU Hs. apply mult_good; [done|]. intros t Ht.
    assert (Hd : (- UGF / sh < 0)%R).
    { unfold Rdiv. assert (Hi := Rinv_0_lt_compat sh Hs). assert (Hm := Rmult_lt_0_compat UGF (/ sh) HU Hi). lra. }
    repeat (apply elem_of_cons in Ht as [->|Ht]; [by_design|]); [..|by apply elem_of_nil in Ht].
    - apply tri_good; [apply closed_real|apply closed_real|apply lhp_one; lra|apply lhp_one; lra|lra].
    - apply tri_good; [apply closed_real|apply closed_pair; lra|apply lhp_one; lra|apply lhp_pair; lra|lra].
  Qed.
  Lemma controller2_good UGF : (0 < UGF)%R -> exists r, controller_20x1e9 cheby1 butter UGF = Ok r /\ good r.
  Proof.
    intros HU. apply mult_good; [done|]. intros t Ht.
    repeat (apply elem_of_cons in Ht as [->|Ht]; [by_design|]); [..|by apply elem_of_nil in Ht].
    - apply tri_good; [apply closed_real|apply closed_real|apply lhp_one; lra|apply lhp_one; lra|lra].
    - apply tri_good; [apply closed_real|apply closed_pair; lra|apply lhp_one; lra|apply lhp_pair; lra|lra].
  Qed.
  Lemma cx_cre a b c : (cx a b * cre c : C_fld) = cx (a * c) (b * c).
  Proof. unfold cx, cre, C_of. cbn. unfold C_mul. cbn. f_equal; ring. Qed.
  Lemma controller3_good UGF : (0 < UGF)%R -> exists r, controller_fast_2p5x1e1 cheby1 butter UGF = Ok r /\ good r.
  Proof.
    intros HU. apply mult_good; [done|]. intros t Ht. rewrite !fmap_cons, !fmap_nil, !cx_cre in Ht. change (1 : C_fld) with (cre 1) in Ht.
    repeat (apply elem_of_cons in Ht as [->|Ht]; [by_design|]); [..|by apply elem_of_nil in Ht].
    - apply tri_good; [apply closed_pair; lra| |apply lhp_pair; lra| |lra].
      + apply closed_reals. intros r [->|[->|[]%elem_of_nil]%elem_of_cons]%elem_of_cons; apply cconj_cre.
      + apply lhp_cons; [cbn; lra|apply lhp_one; lra].
    - apply tri_good; [apply closed_pair; lra|apply closed_pair; lra|apply lhp_pair; lra|apply lhp_pair; lra|lra].
    - apply tri_good; [apply closed_pair; lra|apply closed_pair; lra|apply lhp_pair; lra|apply lhp_pair; lra|lra].
    - apply tri_good; [apply closed_real|apply closed_pair; lra|apply lhp_one; lra|apply lhp_pair; lra|lra].
  Qed.
  Lemma boost7_not F sh : (0 < F)%R -> (0 < sh)%R -> ~ closed (t_z (cheby_boost_7 cheby1 F sh)) /\ ~ closed (t_p (cheby_boost_7 cheby1 F sh)).
  Proof.
    intros HF Hs. assert (HF' : F <> 0%R) by lra. assert (Hs' : sh <> 0%R) by lra. destruct (scale_cre F sh HF' Hs') as [Hc0 _].
    assert (Hm : forall r, cconj (cre (F / sh) * r) = cre (F / sh) * cconj r) by (intros; by rewrite cconj_mul, cconj_cre).
    assert (Cancel : forall l a, closed l -> (a.2 <> 0)%R -> closed ((fun r => cre (F / sh) * r) <$> l ++ [a]) -> False).
    { intros l a Hl Ha HC. rewrite fmap_app in HC. unfold closed in HC. rewrite fmap_app in HC.
      assert (Hl' : closed ((fun r => cre (F / sh) * r) <$> l)) by (by apply closed_map). unfold closed in Hl'. rewrite Hl' in HC. apply Permutation_app_inv_l in HC.
      apply Permutation_length_1 in HC. rewrite Hm in HC. assert (E : cconj a = a).
      { transitivity (cre (F / sh) * cconj a / cre (F / sh)); [field; done|]. rewrite HC. field. done. }
      apply (f_equal snd) in E. destruct a as [x y]. cbn in E, Ha. lra. }
    destruct (proj1 (good_iff _) (Hc 7 (2 / 10)%R 1%R)) as ((Cz & Cp & _) & _). split; intros HC; unfold cheby_boost_7 in HC; rewrite scale_eq in HC; cbn [t_z t_p scaled put_inv start app] in HC.
    - revert HC. apply Cancel; [done|]. cbn. lra.
    - rewrite <- app_assoc in HC.
      assert (HP : t_z (cheby1 7 (2 / 10) 1) ++ [cx (-1 / 10) 1] ++ replicate 7 (cre (-1 / 100)) ≡ₚ (t_z (cheby1 7 (2 / 10) 1) ++ replicate 7 (cre (-1 / 100))) ++ [cx (-1 / 10) 1]).
      { rewrite <- app_assoc. apply Permutation_app; [done|]. apply Permutation_app_comm. }
      unfold closed in HC. rewrite HP in HC. revert HC. apply Cancel; [|cbn; lra]. apply closed_app; [done|apply closed_rep].
  Qed.
  Lemma designs_unity F sh N : (0 < F)%R -> (0 < sh)%R ->
    C_abs (transfer (ledge_controller cheby1 butter F sh N) (ci * cre F)) = (1 : C_fld) /\ C_abs (transfer (ledge_boost cheby1 butter F sh N) (ci * cre F)) = (1 : C_fld) /\ C_abs (transfer (cheby_boost cheby1 F sh) (ci * cre F)) = (1 : C_fld) /\ C_abs (transfer (cheby_boost_7 cheby1 F sh) (ci * cre F)) = (1 : C_fld).
  Proof.
    intros HF Hs. assert (HF' : F <> 0%R) by lra. assert (Hs' : sh <> 0%R) by lra.
    split; [|split; [|split]]; apply C91_unity_lem; [done|done|apply good_nonzero|done|done|apply good_nonzero|done|done|apply good_nonzero|done|done|].
    - auto using put_good, put_inv_good, start_good.
    - apply add_good; [auto using put_good, put_inv_good, start_good|apply closed_pair; lra|apply closed_pair; lra|apply lhp_pair; lra|apply lhp_pair; lra].
    - apply add_good_p; [|apply closed_rep|apply lhp_rep; lra]. apply add_good; [auto using put_inv_good, start_good|apply closed_pair; lra|apply closed_pair; lra|apply lhp_pair; lra|apply lhp_pair; lra].
    - destruct (proj1 (good_iff _) (put_inv_good _ _ start_good (Hc 7 (2 / 10)%R 1%R))) as (_ & A2 & A3 & A4). split; [|split; [|done]]; cbn [t_z t_p]; apply lhp_axis.
      + apply lhp_app; [apply lhp_app; [done|apply lhp_cons; [cbn; lra|apply lhp_nil]]|apply lhp_rep; lra].
      + apply lhp_app; [done|apply lhp_cons; [cbn; lra|apply lhp_nil]].
  Qed.
End designs.

(** shift_to *)
Lemma pr_shift s f (l : list C_fld) : pr s ((fun z => z + cre f * ci) <$> l) = pr (s - ci * cre f) l.
Proof. unfold pr. rewrite fprod_map. apply fprod_ext. intros r _. ring. Qed.
Lemma pr_shift_conj s f (l : list C_fld) : pr s (cconj <$> ((fun z => z + cre f * ci) <$> l)) = cconj (pr (cconj s - ci * cre f) l).
Proof.
  rewrite <- pr_shift. set (m := (fun z => z + cre f * ci) <$> l). unfold pr. rewrite cconj_fprod, fprod_map. apply fprod_ext. intros r _. by rewrite cconj_sub, cconj_conj.
Qed.
Lemma shift_transfer t f s : real_number (t_k t) -> regular t (s - ci * cre f) -> regular t (cconj s - ci * cre f) -> s <> cre (- f * (8 / 10)) ->
  transfer (shift_to t f) s = transfer t (s - ci * cre f) * cconj (transfer t (cconj s - ci * cre f)) * ((s - cre (- f / 2)) / (s - cre (- f * (8 / 10)))).
Proof.
  intros Hk H1%regular_pr H2%regular_pr Hs. rewrite (transfer_eq (shift_to t f)). cbn [shift_to t_k t_z t_p]. rewrite !pr_app, !pr_shift, !pr_shift_conj.
  assert (E1 : forall x, pr s [x] = s - x) by (intros; unfold pr; cbn [fprod foldr]; change ((s - x) * 1 = s - x); ring). rewrite !E1.
  rewrite (transfer_eq t (s - _)), (transfer_eq t (cconj s - _)). rewrite cconj_div, cconj_mul by done. unfold real_number in Hk. rewrite Hk.
  assert (H2' : cconj (pr (cconj s - ci * cre f) (t_p t)) <> 0) by (by apply cconj_neq_0).
  assert (Hs' : s - cre (- f * (8 / 10)) <> 0) by (intros E; apply Hs; transitivity (s - cre (- f * (8 / 10)) + cre (- f * (8 / 10))); [ring|rewrite E; ring]).
  field. done.
Qed.
Lemma shift_real t f : real_number (t_k t) -> real_filter (shift_to t f).
Proof.
  intros Hk. split; [|split; [|by apply real_mul]]; cbn [shift_to t_z t_p]; rewrite app_assoc; (apply closed_app; [apply closed_both|apply closed_real]).
Qed.
Lemma lhp_shift f l : lhp l -> lhp ((fun z => z + cre f * ci) <$> l).
Proof.
  intros Hl r (r' & -> & Hr)%elem_of_list_fmap. apply Hl in Hr. destruct r' as [a b]. cbn [fst] in Hr.
  assert (E : (((a, b) : C_fld) + cre f * ci : C_fld).1 = a) by (cbn; lra). by rewrite E.
Qed.
Lemma lhp_conj l : lhp l -> lhp (cconj <$> l).
Proof. intros Hl r (r' & -> & Hr)%elem_of_list_fmap. apply Hl in Hr. by destruct r'. Qed.
Lemma shift_good t f : (0 < f)%R -> good t -> good (shift_to t f).
Proof.
  rewrite !good_iff. intros Hf ((A1 & A2 & A3) & A4 & A5 & A6). split; [by apply shift_real|]. split; [by apply cmul_neq_0|]. cbn [shift_to t_z t_p].
  split; (apply lhp_app; [by apply lhp_shift|]; apply lhp_app; [by apply lhp_conj, lhp_shift|]; apply lhp_one; lra).
Qed.

(** concrete cases *)
Definition ex_pair (a b : R) : tri := Tri [] [cx (- a) b; cx (- a) (- b)] 1.
Lemma ex_pair_good a b : (0 < a)%R -> good (ex_pair a b).
Proof. intros Ha. change (ex_pair a b) with (Tri [] [cx (- a) b; cx (- a) (- b)] (cre 1)). apply tri_good; [apply closed_nil|by apply closed_pair|apply lhp_nil|apply lhp_pair; lra|lra]. Qed.
Lemma ex_pair_resolved r : r ∈ t_z (ex_pair 1 2) ++ t_p (ex_pair 1 2) -> resolved (1 / 100) r.
Proof.
  cbn [ex_pair t_z t_p app]. intros [->|[->|[]%elem_of_nil]%elem_of_cons]%elem_of_cons; (split; [intros E; apply (f_equal fst) in E; cbn in E; lra|]); right; cbn [fst snd cx];
    unfold Rabs; repeat destruct (Rcase_abs _); lra.
Qed.
Lemma good_regular t s : good t -> (0 <= s.1)%R -> regular t s.
Proof. intros (_ & _ & Hl) Hs Hi. assert (Hx := Hl s ltac:(apply elem_of_app; by right)). lra. Qed.
Lemma good_nonzero_at t s : good t -> (0 <= s.1)%R -> nonzero t s.
Proof. intros (_ & Hk & Hl) Hs. split; [|split; [|done]]; intros Hi; assert (Hx := Hl s ltac:(apply elem_of_app; auto)); lra. Qed.
Lemma C91_product_defined_lem l : (l = [] /\ zpk_mult l = Err ValueError) \/ (l <> [] /\ exists r, zpk_mult l = Ok r).
Proof. destruct l as [|t l]; [by left|]. right. split; [done|]. by eexists. Qed.
Lemma div_real n d : t_k d <> 0 -> real_filter n -> real_filter d -> real_filter (zpk_div n d).
Proof.
  intros Hk (A1 & A2 & A3) (B1 & B2 & B3). split; [by apply closed_app|]. split; [by apply closed_app|]. apply cconj_of_div; [done| |done].
  apply real_mul; [exact cconj_1|done].
Qed.
Lemma designs_good cheby1 butter : (forall n r w, good (cheby1 n r w)) -> (forall n w, good (butter n w)) -> forall F shift N, (0 < F)%R -> (0 < shift)%R ->
  good (ledge_controller cheby1 butter F shift N) /\ good (ledge_boost cheby1 butter F shift N) /\ good (cheby_boost cheby1 F shift).
Proof.
  intros Hc Hb F sh N HF Hs. split; [by apply ledge_controller_good|]. split; [by apply ledge_boost_good|by apply cheby_boost_good].
Qed.
Lemma controllers_good cheby1 butter : (forall n r w, good (cheby1 n r w)) -> (forall n w, good (butter n w)) -> forall UGF shift, (0 < UGF)%R -> (0 < shift)%R ->
  (exists r, controller_10x1e3_20x1e8 cheby1 butter UGF shift = Ok r /\ good r) /\ (exists r, controller_20x1e9 cheby1 butter UGF = Ok r /\ good r) /\
  (exists r, controller_fast_2p5x1e1 cheby1 butter UGF = Ok r /\ good r).
Proof.
  intros Hc Hb U sh HU Hs. split; [by apply controller1_good|]. split; [by apply controller2_good|by apply controller3_good].
Qed.
Lemma scale_shape t F sh F' sh' : good t -> (0 < F)%R -> (0 < sh)%R -> (0 < F')%R -> (0 < sh')%R ->
  exists g, g <> 0 /\ forall s, regular (scale_to F sh t) (cre (F / sh) * s) -> transfer (scale_to F' sh' t) (cre (F' / sh') * s) = g * transfer (scale_to F sh t) (cre (F / sh) * s).
Proof.
  intros Hg H1 H2 H3 H4.
  destruct (C91_shape_lem F sh t) as (g & Hg0 & Hs); [lra|lra|by apply good_nonzero|].
  destruct (C91_shape_lem F' sh' t) as (g' & Hg0' & Hs'); [lra|lra|by apply good_nonzero|].
  exists (g' / g). split; [by apply div_neq_0|]. intros s Hr.
  assert (Hr' : regular t s).
  { intros Hi. apply Hr. rewrite scale_eq. cbn [t_p scaled]. apply elem_of_list_fmap. by exists s. }
  rewrite Hs, Hs' by done. field. done.
Qed.
Lemma designs_shape cheby1 butter : (forall n r w, good (cheby1 n r w)) -> (forall n w, good (butter n w)) ->
  forall (design : R -> R -> tri), (exists N, design = fun F s => ledge_controller cheby1 butter F s N) \/ (exists N, design = fun F s => ledge_boost cheby1 butter F s N) \/ design = cheby_boost cheby1 ->
  forall F shift F' shift', (0 < F)%R -> (0 < shift)%R -> (0 < F')%R -> (0 < shift')%R ->
  exists g, g <> 0 /\ forall s, regular (design F shift) (cre (F / shift) * s) -> transfer (design F' shift') (cre (F' / shift') * s) = g * transfer (design F shift) (cre (F / shift) * s).
Proof.
  intros Hc Hb design [[N ->]|[[N ->]| ->]] F sh F' sh' H1 H2 H3 H4; apply scale_shape; try done.
  - auto using put_good, put_inv_good, start_good.
  - apply add_good; [auto using put_good, put_inv_good, start_good|apply closed_pair; lra|apply closed_pair; lra|apply lhp_pair; lra|apply lhp_pair; lra].
  - apply add_good_p; [|apply closed_rep|apply lhp_rep; lra]. apply add_good; [auto using put_inv_good, start_good|apply closed_pair; lra|apply closed_pair; lra|apply lhp_pair; lra|apply lhp_pair; lra].
Qed.
