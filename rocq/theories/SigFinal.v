(** Proofs of the theorems of SigProps.v. *)
From stdpp Require Import base tactics list numbers gmap.
From Coq Require Import Reals Lra.
From Verif Require Import Fld Py Herm ElecModel ElecSpec InjModel InjSpec InjProofs OptModel OptRot ElecProofs SigModel SigSpec SigProofs.
Local Open Scope fld_scope.
Add Field FFc : (f_theory C_fld).

Lemma C49_real_lem r f : zpk_assert (r_zpk r) -> roots_ok (r_zpk r) -> real_number (r_gain r) ->
  no_pole (r_zpk r) (cre f) -> no_pole (r_zpk r) (cre (r_gain_F r)) -> no_zero (r_zpk r) (cre (r_gain_F r)) ->
  rational_func r (- f) = cconj (rational_func r f).
Proof.
  intros. by apply rational_real.
Qed.
Lemma C49_dc_lem r : roots_ok (r_zpk r) -> szp (r_zpk r) 0 = 1 /\ (r_gain_F r = 0%R -> rational_func r 0 = r_gain r).
Proof.
  intros Hr. split; [by apply szp_0|]. intros E. unfold rational_func. rewrite E. destruct (Req_EM_T 0 0) as [_|]; [|done].
  change (cre 0) with (0 : C_fld). rewrite szp_0 by done. destruct (r_delay r); [|ring].
  replace (- (2 * PI * 0 * r0))%R with 0%R by ring. rewrite cis_0. ring.
Qed.
Lemma C49_magnitude_lem r : roots_ok (r_zpk r) -> no_pole (r_zpk r) (cre (r_gain_F r)) -> no_zero (r_zpk r) (cre (r_gain_F r)) ->
  C_abs (rational_func r (r_gain_F r)) = C_abs (r_gain r).
Proof.
  intros. by apply rational_magnitude.
Qed.
Lemma C49_zeros_lem z f : roots_ok z -> no_pole z f -> (szp z f = 0 <-> ci * f ∈ all_zeros z).
Proof.
  intros. by apply szp_zeros.
Qed.
Lemma C49_cascade_lem a b f : roots_ok a -> roots_ok b -> no_pole a f -> no_pole b f -> szp (zpk_app a b) f = szp a f * szp b f.
Proof.
  intros. by apply szp_app.
Qed.
Lemma C49_order_lem a b f : zpk_perm a b -> szp a f = szp b f.
Proof.
  intros. by apply szp_perm.
Qed.
Lemma C49_delay_lem r d f : rational_func (Rational (r_zpk r) (r_gain r) (Some d) (r_gain_F r)) f =
  cis (- (2 * PI * f * d)) * rational_func (Rational (r_zpk r) (r_gain r) None (r_gain_F r)) f.
Proof.
  unfold rational_func. cbn [r_zpk r_gain r_delay r_gain_F]. cbv zeta. destruct (Req_EM_T _ _); [ring|]. rewrite !div_eq. ring.
Qed.
Lemma C49_coupling_lem a H center f (w : nd unit -> C_fld) :
  (in_band a center -> ~ (no_DC a = true /\ f = 0%R) -> (obeys [tt] (siso_coupling a H center f) [] w <-> w (O tt) = H f * w (I tt))) /\
  (no_DC a = true -> f = 0%R -> (obeys [tt] (siso_coupling a H center f) [] w <-> w (O tt) = 0)) /\
  (~ in_band a center -> siso_coupling a H center f = []).
Proof.
  unfold siso_coupling, in_band. split; [|split].
  - intros (H1 & H2 & H3) Hf.
    destruct (match F_cutoff a with Some c => if Rlt_dec c (Rabs center) then true else false | None => false end) eqn:E.
    { destruct (F_cutoff a) as [c|]; [|done]. specialize (H2 c eq_refl). destruct (Rlt_dec c (Rabs center)); [lra|done]. }
    destruct (Rlt_dec _ _); [lra|]. destruct (if no_DC a then _ else _) eqn:E2.
    { destruct (no_DC a); [|done]. destruct (Req_EM_T center 0); [by destruct H3|done]. }
    assert (siso_func_run a H f = H f) as ->.
    { unfold siso_func_run. destruct (no_DC a); [|done]. destruct (Req_EM_T f 0); [by destruct Hf|done]. }
    assert (emits [(I tt, O tt, H f)] [] w (O tt) = H f * w (I tt)) as E3.
    { unfold emits. cbn [fsum fst snd]. rewrite decide_True by done. ring. }
    split; [intros Ho; etransitivity; [apply (Ho tt); left|done]|]. intros Ho []  _. etransitivity; [exact Ho|done].
  - intros Hd ->. assert (siso_func_run a H 0 = 0) as ->.
    { unfold siso_func_run. rewrite Hd. destruct (Req_EM_T 0 0); done. }
    assert (emits [(I tt, O tt, 0)] [] w (O tt) = 0) as E3.
    { unfold emits. cbn [fsum fst snd]. rewrite decide_True by done. ring. }
    assert (emits [] [] w (O tt) = 0) as E4 by (unfold emits; cbn [fsum]; ring).
    assert (forall es, emits es [] w (O tt) = 0 -> (obeys [tt] es [] w <-> w (O tt) = 0)) as G.
    { intros es E. split; [intros Ho; rewrite <- E; apply (Ho tt); left|]. intros Ho [] _. rewrite E. exact Ho. }
    repeat case_match; apply G; first [exact E3|exact E4].
  - intros Hn. destruct (match F_cutoff a with Some c => if Rlt_dec c (Rabs center) then true else false | None => false end) eqn:E; [done|].
    destruct (Rlt_dec _ _); [done|]. destruct (if no_DC a then _ else _) eqn:E2; [done|]. destruct Hn. split; [lra|]. split.
    + intros c Hc. rewrite Hc in E. destruct (Rlt_dec c (Rabs center)); [done|lra].
    + intros Hd Hc. rewrite Hd in E2. destruct (Req_EM_T center 0); done.
Qed.
Lemma C49_example_lem : exists r f, zpk_assert (r_zpk r) /\ roots_ok (r_zpk r) /\ real_number (r_gain r) /\
  no_pole (r_zpk r) (cre f) /\ no_pole (r_zpk r) (cre (r_gain_F r)) /\ no_zero (r_zpk r) (cre (r_gain_F r)) /\
  rational_func r f <> rational_func r (- f).
Proof.
  assert (forall x, ci * cre x = ((0%R, x) : C_fld)) as E. { intros x. unfold ci, cre. simpl. unfold C_mul, C_i, C_of. simpl. f_equal; ring. }
  exists (Rational (Zpk [] [] [cre (-1)] []) 1 None 0%R), 1%R.
  unfold zpk_assert, roots_ok, real_number, no_pole, no_zero, all_zeros, all_poles. cbn [r_zpk r_gain r_gain_F zeros_r zeros_c poles_r poles_c app fmap list_fmap].
  rewrite !E, !elem_of_list_singleton, elem_of_nil. unfold cre, C_of. repeat split; try done.
  - by constructor.
  - by intros [].
  - intros H. apply (f_equal fst) in H. simpl in H. lra.
  - apply cconj_1.
  - intros H. apply (f_equal fst) in H. simpl in H. lra.
  - intros H. apply (f_equal fst) in H. simpl in H. lra.
  - set_solver.
  - unfold rational_func. cbn [r_zpk r_gain r_delay r_gain_F]. destruct (Req_EM_T 0 0) as [_|]; [|done].
    unfold szp. cbn [zeros_r zeros_c poles_r poles_c root_xfer root_xfer2 foldl]. rewrite !E. unfold cre, C_of. simpl.
    unfold C_mul, C_div, C_sub, C_inv, C_sq, C_add, C_opp. simpl. intros H. apply (f_equal snd) in H. simpl in H. field_simplify in H; lra.
Qed.
Lemma C50_equations_lem {K : fld} (s : K) Ni Ns No A B C D es (w : nd nat -> K) : s <> 0 -> (forall o i, D o i = 0) ->
  state_space s Ni Ns No A B C D = Ok es ->
  (holds (ss_nodes Ns No) es w <->
   (forall j, (j < Ns)%nat -> s * w (Sg j) = row A Ns (fun k => w (Sg k)) j + row B Ni (fun i => w (I i)) j) /\
   (forall o, (o < No)%nat -> w (O o) = row C Ns (fun k => w (Sg k)) o)).
Proof.
  intros. by apply ss_equations with (D := D).
Qed.
Lemma C50_transfer_lem {K : fld} (s : K) Ni Ns No A B C D M es (w : nd nat -> K) : s <> 0 -> (forall o i, D o i = 0) ->
  state_space s Ni Ns No A B C D = Ok es -> holds (ss_nodes Ns No) es w ->
  (forall i j, (i < Ns)%nat -> (j < Ns)%nat ->
     fsum (fun k => M i k * ((if decide (k = j) then s else 0) - A k j)) (seq 0 Ns) = if decide (i = j) then 1 else 0) ->
  forall o, (o < No)%nat -> w (O o) = row C Ns (row M Ns (row B Ni (fun i => w (I i)))) o.
Proof.
  intros. by eapply ss_transfer.
Qed.
Lemma C50_runs_lem {K : fld} (s : K) Ni Ns No (A B C D : nat -> nat -> K) :
  ((exists es, state_space s Ni Ns No A B C D = Ok es) <-> Ni = 0%nat \/ (No <= Ns)%nat) /\
  ((exists es, state_space s Ni Ns No A B C D = Ok es) \/ state_space s Ni Ns No A B C D = Err IndexError).
Proof.
  rewrite state_space_ok. destruct (decide _) as [H|H].
  - split; [|by left; eexists]. split; [done|by eexists].
  - split; [|by right]. split; [by intros [? ?]|done].
Qed.
Lemma C50_direct_lem {K : fld} (s : K) Ni Ns No A B C D es (w : nd nat -> K) : s <> 0 ->
  state_space s Ni Ns No A B C D = Ok es ->
  (holds (ss_nodes Ns No) es w <->
   (forall j, (j < Ns)%nat -> s * w (Sg j) = row A Ns (fun k => w (Sg k)) j + row B Ni (fun i => w (I i)) j +
      (if decide (j < No)%nat then s * row D Ni (fun i => w (I i)) j else 0)) /\
   (forall o, (o < No)%nat -> w (O o) = row C Ns (fun k => w (Sg k)) o)).
Proof.
  intros. by apply ss_direct.
Qed.
Lemma C50_direct_refuted_lem : exists (A B C D : nat -> nat -> Qc_fld) es (w : nd nat -> Qc_fld),
  state_space (1 : Qc_fld) 1 1 1 A B C D = Ok es /\ holds (ss_nodes 1 1) es w /\
  w (O 0%nat) <> row C 1 (fun k => w (Sg k)) 0 + row D 1 (fun i => w (I i)) 0.
Proof.
  exists (fun _ _ => 0), (fun _ _ => 0), (fun _ _ => 0), (fun _ _ => 1), [(I 0%nat, Sg 0%nat, 1)].
  exists (fun n => match n with O _ => 0 | _ => 1 end). split; [reflexivity|]. split; [|vm_decide].
  intros t Ht. apply elem_of_cons in Ht as [-> |Ht%elem_of_list_singleton]; [vm_decide|]. subst t. vm_decide.
Qed.
Lemma C50_example_lem : exists (A B C D M : nat -> nat -> Qc_fld) es (w : nd nat -> Qc_fld), let s := 1 + 1 : Qc_fld in
  s <> 0 /\ (forall o i, D o i = 0) /\ state_space s 1 1 1 A B C D = Ok es /\ holds (ss_nodes 1 1) es w /\ w (O 0%nat) <> 0 /\
  (forall i j, (i < 1)%nat -> (j < 1)%nat ->
     fsum (fun k => M i k * ((if decide (k = j) then s else 0) - A k j)) (seq 0 1) = if decide (i = j) then 1 else 0).
Proof.
  exists (fun _ _ => 1), (fun _ _ => 1), (fun _ _ => 1), (fun _ _ => 0), (fun _ _ => 1).
  eexists. exists (fun _ => 1). cbv zeta. split; [vm_decide|]. split; [done|]. split; [reflexivity|]. split.
  - intros t Ht. apply elem_of_cons in Ht as [-> |Ht%elem_of_list_singleton]; [vm_decide|]. subst t. vm_decide.
  - split; [vm_decide|]. intros i j Hi Hj. replace i with 0%nat by lia. replace j with 0%nat by lia. vm_decide.
Qed.

Lemma C62_product_lem {Q} `{Countable Q} qadd q0 (reject : Q -> bool) Hz los ins ks x t :
  (forall a b, Hz (qadd a b) = Hz a + Hz b)%R -> NoDup ks -> q0 ∉ los -> q0 ∉ ins ->
  (forall a b, a ∈ los -> b ∈ ins -> qadd a b ∈ ks /\ reject (qadd a b) = false) ->
  wave q0 Hz ks (fun k => arrives (mixer qadd q0 reject Hz los ins) x (R_I, k)) t =
  wave q0 Hz los (fun k => x (LO, k)) t * wave q0 Hz ins (fun k => x (In, k)) t.
Proof.
  intros. etransitivity; [by apply mixer_wave; [left|..]|]. f_equal. unfold wave. apply fsum_ext. intros k _. unfold quad. ring.
Qed.
Lemma C62_quadrature_lem {Q} `{Countable Q} qadd q0 (reject : Q -> bool) Hz los ins ks x t :
  (forall a b, Hz (qadd a b) = Hz a + Hz b)%R -> NoDup ks -> q0 ∉ los -> q0 ∉ ins ->
  (forall a b, a ∈ los -> b ∈ ins -> qadd a b ∈ ks /\ reject (qadd a b) = false) ->
  wave q0 Hz ks (fun k => arrives (mixer qadd q0 reject Hz los ins) x (R_Q, k)) t =
  wave q0 Hz los (fun k => ci * sgn (Hz k) * x (LO, k)) t * wave q0 Hz ins (fun k => x (In, k)) t.
Proof.
  intros. by apply mixer_wave; [right|..].
Qed.
Lemma C62_dc_refuted_lem : exists (x : mixport * Z -> C_fld) t,
  wave 0%Z IZR [0%Z] (fun k => arrives (mixer Z.add 0%Z (fun _ => false) IZR [0%Z] [0%Z]) x (R_I, k)) t <>
  wave 0%Z IZR [0%Z] (fun k => x (LO, k)) t * wave 0%Z IZR [0%Z] (fun k => x (In, k)) t.
Proof.
  exists (fun _ => 1), 0%R. unfold wave. cbn [fsum]. rewrite (mixer_arrives Z.add 0%Z) by (by left). cbn [fsum].
  change (0 + 0)%Z with 0%Z. rewrite !(decide_True _ _ (P := 0%Z = 0%Z)) by done. unfold quad.
  replace (2 * PI * IZR 0 * 0)%R with 0%R by ring. rewrite cis_0. intros E.
  assert (quarter = 1) as E'. { transitivity (1 * (1 * quarter * 1 * 1 + 0 + 0) * 1 + 0); [ring|]. rewrite E. ring. }
  assert ((1 + 1) * (1 + 1) = (1 : C_fld)) as E2.
  { transitivity (quarter * ((1 + 1) * (1 + 1))); [rewrite E'; ring|]. unfold quarter.
    generalize (two_neq_0 C_herm). generalize (1 + 1 : C_fld). intros two H2. field. done. }
  apply (f_equal fst) in E2. simpl in E2. lra.
Qed.
Lemma C62_example_lem : (forall a b, IZR (a + b) = IZR a + IZR b)%R /\ NoDup [-2; 0; 2]%Z /\ 0%Z ∉ [-1; 1]%Z /\
  (forall a b, a ∈ [-1; 1]%Z -> b ∈ [-1; 1]%Z -> (a + b)%Z ∈ [-2; 0; 2]%Z /\ (fun _ : Z => false) (a + b)%Z = false).
Proof.
  split; [apply plus_IZR|]. split; [vm_decide|]. split; [vm_decide|]. intros a b Ha Hb. split; [|done].
  rewrite !elem_of_cons, elem_of_nil in *. lia.
Qed.

Lemma C63_mean_square_lem {Q} `{Countable Q} qneg q0 (reject : Q -> bool) ins x :
  (forall k, qneg (qneg k) = k) -> qneg q0 = q0 -> (forall k, qneg k = k -> k = q0) ->
  NoDup ins -> (forall k, k ∈ ins -> qneg k ∈ ins /\ reject k = false) ->
  arrives (mean_square qneg q0 reject ins ∅) x (MS, q0) =
  fsum (fun k => (if decide (k = q0) then 1 else quarter) * x (In, k) * x (In, qneg k)) ins.
Proof.
  intros Hnn H0 Hf Hn Hk. rewrite (ms_arrives qneg q0 reject x Hnn H0 Hf ins ∅ Hn).
  2:{ intros k Hin. by apply Hk. }
  2:{ intros k Hin. right. by apply Hk. }
  2:{ intros k Hin. by apply not_elem_of_empty in Hin. }
  apply fsum_ext. intros k _. by rewrite decide_False by apply not_elem_of_empty.
Qed.
Lemma C63_example_lem : (forall k, - - k = k)%Z /\ (forall k, - k = k -> k = 0)%Z /\ NoDup [-1; 0; 1]%Z /\
  (forall k, k ∈ [-1; 0; 1]%Z -> (- k)%Z ∈ [-1; 0; 1]%Z).
Proof.
  split; [lia|]. split; [lia|]. split; [vm_decide|]. intros k Hk. rewrite !elem_of_cons, elem_of_nil in *. lia.
Qed.

Lemma C64_resonance_lem m f0 g f F : m <> 0%R ->
  cre (- (f * f)) + ci * cre g * cre f + cre (f0 * f0) <> 0 ->
  let s := laplace f in let x := mech_resonance m f0 g f * F in
  cre m * s * s * x + cre m * cre (2 * PI * g) * s * x + cre m * cre (2 * PI * f0) * cre (2 * PI * f0) * x = F.
Proof.
  intros Hm Hd. cbv zeta. unfold mech_resonance, laplace. set (D := cre (- (f * f)) + _ + _) in *.
  assert (cre m <> 0) as Hm' by (by apply cre_neq_0). assert (cre (2 * PI) <> 0) as HP.
  { apply cre_neq_0. pose proof PI_RGT_0. lra. }
  rewrite !cre_mul in *. set (P := cre 2 * cre PI) in *.
  transitivity (cre m * (P * P) * D * (1 / (cre m * (P * P)) / D * F)).
  - generalize (1 / (cre m * (P * P)) / D * F). intros x. unfold D. rewrite cre_opp, !cre_mul. clear D Hd.
    transitivity (cre m * (P * P) * (ci * ci * (cre f * cre f) + ci * cre g * cre f + cre f0 * cre f0) * x); [ring|rewrite ci_sq; ring].
  - clearbody D P. field. done.
Qed.
Lemma C64_width_lem f0 q w : mech_FWHM f0 (Some q) w = Ok (f0 / q)%R /\ mech_FWHM f0 None (Some q) = Ok q /\ mech_FWHM f0 None None = Err RuntimeError.
Proof.
  done.
Qed.
Lemma C64_integrator_lem f : f <> 0%R -> laplace f * integrator f = - cre (2 * PI).
Proof.
  intros Hf. unfold laplace, integrator. field. split; [by apply cre_neq_0|apply nci_neq_0].
Qed.
Lemma C64_integrator_refuted_lem : exists f, f <> 0%R /\ forall k, (0 < k)%R -> laplace f * integrator f <> cre k.
Proof.
  exists 1%R. split; [lra|]. intros k Hk. unfold laplace, integrator.
  replace (ci * cre (2 * PI) * cre 1 * (1 / (- ci * cre 1))) with (cre (- (2 * PI))).
  - intros E. injection E. pose proof PI_RGT_0. lra.
  - rewrite cre_opp. field. split; [apply cre_neq_0; lra|apply nci_neq_0].
Qed.
Lemma C65_distribution_lem {K : fld} (gains : list (nat * K)) (w : nd nat -> K) : NoDup gains.*1 ->
  (obeys gains.*1 (distribution gains) [] w <-> forall g, g ∈ gains -> w (O g.1) = g.2 * w (I 0%nat)).
Proof.
  apply distribution_lem.
Qed.
Lemma C65_summing_lem {K : fld} (gains : list (nat * K)) (w : nd nat -> K) :
  obeys [0%nat] (summing gains) [] w <-> w (O 0%nat) = fsum (fun g => g.2 * w (I g.1)) gains.
Proof.
  apply summing_lem.
Qed.
