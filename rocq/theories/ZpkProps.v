(** C91.  Filters given by zeros, poles and gain (phasor/signals/power_loops.py).  Vocabulary in
    ZpkSpec.v and SigSpec.v. *)
From Coq Require Import Reals Lra.
From stdpp Require Import base tactics list numbers.
From Verif Require Import Fld Py Herm OptModel SigModel SigSpec ZpkModel ZpkSpec ZpkProofs ZpkFinal.
Local Open Scope fld_scope.

(** the product of filters is the filter of the product of their transfer functions *)
Theorem C91_product l r s : zpk_mult l = Ok r -> (forall t, t ∈ l -> regular t s) -> transfer r s = product ((fun t => transfer t s) <$> l).
Proof. exact (C91_product_lem l r s). Qed.
Print Assumptions C91_product.
(** no filter at all has no product *)
Theorem C91_product_defined l : (l = [] /\ zpk_mult l = Err ValueError) \/ (l <> [] /\ exists r, zpk_mult l = Ok r).
Proof. exact (C91_product_defined_lem l). Qed.
Print Assumptions C91_product_defined.
Theorem C91_quotient n d s : regular n s -> nonzero d s -> transfer (zpk_div n d) s = transfer n s / transfer d s.
Proof. exact (C91_quotient_lem n d s). Qed.
Print Assumptions C91_quotient.
Example C91_product_case : (exists r, zpk_mult [ex_pair 1 2; ex_pair 3 1] = Ok r) /\ (forall t, t ∈ [ex_pair 1 2; ex_pair 3 1] -> regular t ci) /\ nonzero (ex_pair 1 2) ci.
Proof.
  split; [by eexists|]. split; [|apply good_nonzero_at; [apply ex_pair_good; lra|cbn; lra]].
  intros t [->|[->|[]%elem_of_nil]%elem_of_cons]%elem_of_cons; (apply good_regular; [apply ex_pair_good; lra|cbn; lra]).
Qed.

(** a real filter has conjugate responses at conjugate frequencies, and products and quotients of real filters are real *)
Theorem C91_real t s : real_filter t -> regular t s -> transfer t (cconj s) = cconj (transfer t s).
Proof. exact (C91_real_lem t s). Qed.
Print Assumptions C91_real.
Theorem C91_real_product l r : (forall t, t ∈ l -> real_filter t) -> zpk_mult l = Ok r -> real_filter r.
Proof. exact (mult_real l r). Qed.
Print Assumptions C91_real_product.
Theorem C91_real_quotient n d : t_k d <> 0 -> real_filter n -> real_filter d -> real_filter (zpk_div n d).
Proof. exact (div_real n d). Qed.
Print Assumptions C91_real_quotient.
Example C91_real_case : real_filter (ex_pair 1 2) /\ regular (ex_pair 1 2) ci /\ t_k (ex_pair 1 2) <> 0.
Proof. assert (G := ex_pair_good 1 2 ltac:(lra)). split; [apply G|]. split; [apply good_regular; [done|cbn; lra]|apply G]. Qed.

(** the roots of a real filter are sorted into the real ones and those above the axis, whose conjugates are the rest *)
Theorem C91_sorted tiny l re pos neg : (0 < tiny)%R -> (forall r, r ∈ l -> resolved tiny r) -> closed l -> sort_roots tiny l = (re, pos, neg) ->
  re ++ pos ++ neg ≡ₚ l /\ neg ≡ₚ cconj <$> pos /\ (forall r, r ∈ re -> r.2 = 0%R) /\ (forall r, r ∈ pos -> (0 < r.2)%R).
Proof. exact (C91_sorted_lem tiny l re pos neg). Qed.
Print Assumptions C91_sorted.
(** converted for a SRationalFilter, the filter keeps its shape and gets magnitude 1 at UGF: it is minus the
    transfer function over its magnitude at UGF, up to the sign of its value at 0 *)
Theorem C91_convert tiny UGF t r : (0 < tiny)%R -> UGF <> 0%R -> closed (t_z t) -> closed (t_p t) -> (forall r, r ∈ t_z t ++ t_p t -> resolved tiny r) ->
  nonzero t (ci * cre UGF) -> zpk_convert tiny UGF t OutRational = RRational r ->
  forall f, regular t (ci * cre f) -> rational_func r f = - ((C_abs (transfer t 0) : C_fld) / transfer t 0 * (transfer t (ci * cre f) / (C_abs (transfer t (ci * cre UGF)) : C_fld))).
Proof. exact (C91_convert_lem tiny UGF t r). Qed.
Print Assumptions C91_convert.
Theorem C91_convert_sign t : real_filter t -> nonzero t 0 -> (C_abs (transfer t 0) : C_fld) / transfer t 0 = 1 \/ (C_abs (transfer t 0) : C_fld) / transfer t 0 = - (1).
Proof. exact (C91_sign_lem t). Qed.
Print Assumptions C91_convert_sign.
Example C91_convert_case : (forall r, r ∈ t_z (ex_pair 1 2) ++ t_p (ex_pair 1 2) -> resolved (1 / 100) r) /\ closed (t_p (ex_pair 1 2)) /\ nonzero (ex_pair 1 2) (ci * cre 3) /\ nonzero (ex_pair 1 2) 0.
Proof.
  assert (G := ex_pair_good 1 2 ltac:(lra)). split; [exact ex_pair_resolved|]. split; [apply G|]. split; apply good_nonzero_at; [done| |done|]; cbn; lra.
Qed.
(** the sign of the gain is lost *)
Theorem C91_sign_refuted tiny UGF t : zpk_convert tiny UGF (Tri (t_z t) (t_p t) (- t_k t)) OutRational = zpk_convert tiny UGF t OutRational /\
  forall s, regular t s -> transfer (Tri (t_z t) (t_p t) (- t_k t)) s = - transfer t s.
Proof. exact (C91_sign_refuted_lem tiny UGF t). Qed.
Print Assumptions C91_sign_refuted.
(** and so is a root at 0: an integrator becomes a constant *)
Theorem C91_origin_refuted tiny UGF : (0 < tiny)%R -> UGF <> 0%R -> exists t r, real_filter t /\ nonzero t (ci * cre UGF) /\ zpk_convert tiny UGF t OutRational = RRational r /\
  (forall f, rational_func r f = - (1)) /\ forall f, f <> 0%R -> regular t (ci * cre f) /\ transfer t (ci * cre f) = 1 / (ci * cre f).
Proof. exact (C91_origin_refuted_lem tiny UGF). Qed.
Print Assumptions C91_origin_refuted.

(** the designs have magnitude 1 at F_center, whatever scipy's filters with their roots in the left half plane are *)
Theorem C91_unity cheby1 butter : (forall n r w, good (cheby1 n r w)) -> (forall n w, good (butter n w)) -> forall F shift N, (0 < F)%R -> (0 < shift)%R ->
  C_abs (transfer (ledge_controller cheby1 butter F shift N) (ci * cre F)) = (1 : C_fld) /\ C_abs (transfer (ledge_boost cheby1 butter F shift N) (ci * cre F)) = (1 : C_fld) /\
  C_abs (transfer (cheby_boost cheby1 F shift) (ci * cre F)) = (1 : C_fld) /\ C_abs (transfer (cheby_boost_7 cheby1 F shift) (ci * cre F)) = (1 : C_fld).
Proof. exact (designs_unity cheby1 butter). Qed.
Print Assumptions C91_unity.
(** two choices of F_center and shift give the same shape at scaled frequencies *)
Theorem C91_shape cheby1 butter : (forall n r w, good (cheby1 n r w)) -> (forall n w, good (butter n w)) ->
  forall (design : R -> R -> tri), (exists N, design = fun F s => ledge_controller cheby1 butter F s N) \/ (exists N, design = fun F s => ledge_boost cheby1 butter F s N) \/ design = cheby_boost cheby1 ->
  forall F shift F' shift', (0 < F)%R -> (0 < shift)%R -> (0 < F')%R -> (0 < shift')%R ->
  exists g, g <> 0 /\ forall s, regular (design F shift) (cre (F / shift) * s) -> transfer (design F' shift') (cre (F' / shift') * s) = g * transfer (design F shift) (cre (F / shift) * s).
Proof. exact (designs_shape cheby1 butter). Qed.
Print Assumptions C91_shape.
(** the designs are real, stable and of minimum phase *)
Theorem C91_designs cheby1 butter : (forall n r w, good (cheby1 n r w)) -> (forall n w, good (butter n w)) -> forall F shift N, (0 < F)%R -> (0 < shift)%R ->
  good (ledge_controller cheby1 butter F shift N) /\ good (ledge_boost cheby1 butter F shift N) /\ good (cheby_boost cheby1 F shift).
Proof. exact (designs_good cheby1 butter). Qed.
Print Assumptions C91_designs.
(** so are the controllers *)
Theorem C91_controllers cheby1 butter : (forall n r w, good (cheby1 n r w)) -> (forall n w, good (butter n w)) -> forall UGF shift, (0 < UGF)%R -> (0 < shift)%R ->
  (exists r, controller_10x1e3_20x1e8 cheby1 butter UGF shift = Ok r /\ good r) /\ (exists r, controller_20x1e9 cheby1 butter UGF = Ok r /\ good r) /\
  (exists r, controller_fast_2p5x1e1 cheby1 butter UGF = Ok r /\ good r).
Proof. exact (controllers_good cheby1 butter). Qed.
Print Assumptions C91_controllers.
(** cheby_boost_7 has one zero and one pole without its conjugate: it is never a real filter *)
Theorem C91_boost7_refuted cheby1 : (forall n r w, good (cheby1 n r w)) -> forall F shift, (0 < F)%R -> (0 < shift)%R ->
  ~ closed (t_z (cheby_boost_7 cheby1 F shift)) /\ ~ closed (t_p (cheby_boost_7 cheby1 F shift)).
Proof. exact (boost7_not cheby1). Qed.
Print Assumptions C91_boost7_refuted.
Example C91_designs_case : (forall (n : nat) (r w : R), good (ex_pair 1 2)) /\ (forall (n : nat) (w : R), good (ex_pair 3 1)).
Proof. split; intros; apply ex_pair_good; lra. Qed.

(** the filter shifted to a frequency is the filter about that frequency times the filter about its opposite, and a real lead or lag *)
Theorem C91_shift t f s : real_number (t_k t) -> regular t (s - ci * cre f) -> regular t (cconj s - ci * cre f) -> s <> cre (- f * (8 / 10)) ->
  transfer (shift_to t f) s = transfer t (s - ci * cre f) * cconj (transfer t (cconj s - ci * cre f)) * ((s - cre (- f / 2)) / (s - cre (- f * (8 / 10)))).
Proof. exact (shift_transfer t f s). Qed.
Print Assumptions C91_shift.
Theorem C91_shift_real t f : real_number (t_k t) -> real_filter (shift_to t f).
Proof. exact (shift_real t f). Qed.
Print Assumptions C91_shift_real.
Theorem C91_shift_good t f : (0 < f)%R -> good t -> good (shift_to t f).
Proof. exact (shift_good t f). Qed.
Print Assumptions C91_shift_good.
Example C91_shift_case : real_number (t_k (ex_pair 1 2)) /\ regular (ex_pair 1 2) (0 - ci * cre 1) /\ (0 : C_fld) <> cre (- 1 * (8 / 10)).
Proof.
  assert (G := ex_pair_good 1 2 ltac:(lra)). split; [apply G|]. split; [apply good_regular; [done|cbn; lra]|]. intros E. apply (f_equal fst) in E. cbn in E. lra.
Qed.
