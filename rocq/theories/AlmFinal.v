(** Proofs of the theorems of AlmProps.v. *)
From stdpp Require Import base tactics list numbers.
From Coq Require Import Reals Lra Psatz.
From Verif Require Import Fld Py Herm OptRot SigModel SigProofs AlmModel AlmSpec AlmProofs AlmProofs2 AlmProofs3 AlmProofs4.
Local Open Scope R_scope.

Lemma C52_defined_lem t a b : tree_ok t -> ((exists m, between t a b = Ok m) <-> target t a /\ target t b).
Proof.
  intros Ht. split.
  - intros [m E]. by apply between_valid in E.
  - intros [Va Vb]. destruct (between_val t a b Ht Va Vb) as (m & E & _). by exists m.
Qed.
Lemma C52_compose_lem t a b c x y : tree_ok t -> between t a b = Ok x -> between t b c = Ok y ->
  exists z, between t a c = Ok z /\ val z = mmul (val y) (val x).
Proof.
  intros Ht Ex Ey. destruct (between_valid _ _ _ _ Ex) as [Va _]. destruct (between_valid _ _ _ _ Ey) as [_ Vc].
  destruct (between_val t a c Ht Va Vc) as (z & Ez & _ & Hz). exists z. split; [done|].
  apply (between_upto _ _ _ _ Ht) in Ex, Ey. apply (cancel_r _ _ (upto t (path a) (at_ a))); [by apply upto_det|].
  by rewrite Hz, <- mmul_assoc, Ex, Ey.
Qed.
Lemma C52_inverse_lem t a b x : tree_ok t -> between t a b = Ok x ->
  exists y, between t b a = Ok y /\ mmul (val y) (val x) = I2 /\ mmul (val x) (val y) = I2.
Proof.
  intros Ht Ex. destruct (between_valid _ _ _ _ Ex) as [Va Vb]. destruct (between_val t b a Ht Vb Va) as (y & Ey & _ & Hy). exists y. split; [done|].
  apply (between_upto _ _ _ _ Ht) in Ex.
  assert (mmul (val y) (val x) = I2) as E; [|split; [done|by apply inv_comm]].
  apply (cancel_r _ _ (upto t (path a) (at_ a))); [by apply upto_det|]. by rewrite <- mmul_assoc, Ex, Hy, mmul_I_l.
Qed.
Lemma C52_here_lem t a : tree_ok t -> target t a -> exists m, between t a a = Ok m /\ val m = I2.
Proof.
  intros Ht Va. destruct (between_val t a a Ht Va Va) as (m & E & _ & H). exists m. split; [done|].
  apply (cancel_r _ _ (upto t (path a) (at_ a))); [by apply upto_det|]. by rewrite H, mmul_I_l.
Qed.
Lemma C52_whole_lem t : tree_ok t ->
  exists m, between t left_ right_ = Ok m /\ val m = foldl (fun m c => mmul (val (matrix c)) m) I2 (flat t).
Proof.
  intros Ht. destruct (between_val t left_ right_ Ht (valid_left t) (valid_right t)) as (m & E & _ & H). exists m. split; [done|].
  cbn [path at_ left_ right_] in H. rewrite upto_left, upto_right, mmul_I_r in H. by rewrite H, prod_foldl, prod_flat.
Qed.
Lemma C52_determinant_lem t n a b m : tree_ok t -> matched t n -> n <> 0 -> between t a b = Ok m ->
  det (val m) = index t n (path a) (at_ a) / index t n (path b) (at_ b).
Proof.
  intros Ht Hm Hn E. destruct (between_valid _ _ _ _ E) as [Va Vb]. apply (between_upto _ _ _ _ Ht) in E.
  destruct (upto_index _ _ t n Ht Hm Hn Va) as [Ha Ea]. destruct (upto_index _ _ t n Ht Hm Hn Vb) as [Hb Eb].
  pose proof (upto_det t (path a) (at_ a) Ht) as Hd. apply (f_equal det) in E. rewrite det_mmul in E. rewrite <- E in Eb.
  apply (Rmult_eq_reg_r (index t n (path b) (at_ b))); [|done]. unfold Rdiv. rewrite (Rmult_assoc (index t n (path a) (at_ a))), Rinv_l, Rmult_1_r by done.
  apply (Rmult_eq_reg_r (det (upto t (path a) (at_ a)))); [|done].
  etransitivity; [etransitivity; [|exact Eb]; ring|]. etransitivity; [symmetry; exact Ea|]. ring.
Qed.
Lemma C52_empty_refuted_lem : exists t a b, target t a /\ target t b /\ between t a b = Err ZeroDivisionError.
Proof.
  exists (Node []), right_, left_. split; [done|]. split; [done|]. unfold between. simpl.
  destruct (Req_EM_T (1 * 0 * 0 * 1) 0); [done|]. exfalso. lra.
Qed.
Lemma C52_example_lem : exists t n a b, tree_ok t /\ matched t n /\ n <> 0 /\ target t a /\ target t b /\ t <> Tgt /\
  index t n (path a) (at_ a) <> index t n (path b) (at_ b).
Proof.
  exists (Node [Thin (LensInterface 1 2 (Some 3)) false; Node [Sp 5 2]; Thin (LensInterface 2 1 None) false]), 1, left_, (Tidx [1%nat; 0%nat] TR).
  cbn. repeat split; try done; try lra. intros E. injection E. lra.
Qed.

Lemma C53_inverse_lem t : tree_ok t ->
  exists i, matrix_inv t = Ok i /\ mmul (val i) (val (matrix t)) = I2 /\ mmul (val (matrix t)) (val i) = I2.
Proof. intros Ht. destruct (tree_inv t Ht) as (i & E & _ & H & _). exists i. split; [done|]. split; [done|]. by apply inv_comm. Qed.
Lemma C53_built_lem n0 env c : n0 <> 0 -> comp_ok c -> tree_ok (build n0 env c).
Proof. intros. by apply build_ok. Qed.
Lemma C53_reversal_lem n0 env c r : n0 <> 0 -> comp_ok c -> no_generic c ->
  ray (val (matrix (build n0 (negb env) c))) (back (ray (val (matrix (build n0 env c))) r)) = back r /\
  width (build n0 (negb env) c) = width (build n0 env c).
Proof. intros Hn Ho Hg. destruct (build_twin n0 c Hn Ho Hg env) as [Hw Hr]. split; [by apply revof_ray|done]. Qed.
Lemma C53_generic_refuted_lem : exists n0 c r, n0 <> 0 /\ comp_ok c /\
  ray (val (matrix (build n0 true c))) (back (ray (val (matrix (build n0 false c))) r)) <> back r.
Proof.
  exists 1, (CPart false (ABCDGeneric 2 0 0)), (1, 0). split; [lra|]. split; [simpl; lra|]. unfold ray, back. simpl. intros E. apply (f_equal fst) in E. simpl in E. lra.
Qed.
Lemma C53_example_lem : exists n0 c, n0 <> 0 /\ comp_ok c /\ no_generic c /\ matrix (build n0 true c) <> matrix (build n0 false c).
Proof.
  exists 1, (CPlaced false [(0, CPart false (ThinLens 1)); (3, CTarget)]). split; [lra|]. split; [simpl; repeat split; (done || lra)|]. split; [done|].
  simpl. rewrite !focus_0. simpl. intros E. injection E. lra.
Qed.

Lemma C54_compose_lem b m m' : physical b -> 0 < det m -> 0 < det m' ->
  let b1 := propagate_matrix (propagate_matrix b m) m' in let b2 := propagate_matrix b (mmul m' m) in
  value b1 = value b2 /\ wavelen b1 = wavelen b2 /\ same_phase (gouy b1) (gouy b2).
Proof. intros. by apply beam_compose. Qed.
Lemma C54_physical_lem b m : physical b -> 0 < det m -> physical (propagate_matrix b m).
Proof. intros. by apply propagate_physical. Qed.
Lemma C54_distance_lem b L : physical b ->
  let b' := propagate_distance b L in
  b_Z b' = b_Z b + L /\ b_ZR b' = b_ZR b /\ b_W0 b' = b_W0 b /\ wavelen b' = wavelen b /\
  same_phase (gouy b') (gouy b * (value b / value b'))%F.
Proof.
  intros Hb. cbv zeta. pose proof (distance_gouy b L Hb) as Hg. pose proof (distance_value b L) as E. pose proof (distance_wave b L) as El.
  assert (b_ZR (propagate_distance b L) = b_ZR b) as Ez by (unfold b_ZR at 1; by rewrite E).
  repeat split; try done; [unfold b_Z at 1; by rewrite E|]. unfold b_W0. by rewrite Ez, El.
Qed.
Lemma C54_reverse_lem b m mr : physical b -> 0 < det m -> (forall r, ray mr (back (ray m r)) = back r) ->
  value (propagate_matrix (b_reversed (propagate_matrix b m)) mr) = value (b_reversed b) /\
  wavelen (propagate_matrix (b_reversed (propagate_matrix b m)) mr) = wavelen b.
Proof.
  intros [Hb _] Hm H. split; [by apply (mob_reverse m mr)|]. rewrite propagate_wave. simpl. rewrite (reverse_mat m mr ltac:(lra) H).
  unfold det, minv in *. simpl. unfold det. field. lra.
Qed.
Lemma C54_example_lem : exists b m m', physical b /\ 0 < det m /\ 0 < det m' /\ det m <> 1 /\ value (propagate_matrix b m) <> value b.
Proof.
  exists (Beam (1, 2) 3 1%F), (M2 1 0 0 2), (M2 1 5 0 1). unfold physical, det, b_ZR. simpl. repeat split; try lra.
  unfold C_div, C_mul, C_add, C_inv, C_sq. simpl. intros E. apply (f_equal snd) in E. simpl in E. lra.
Qed.

Lemma C55_fixed_lem m lam g : det m = 1 -> (m00 m + m11 m) * (m00 m + m11 m) < 4 ->
  0 < b_ZR (Beam (eigen_q m) lam g) /\ value (propagate_matrix (Beam (eigen_q m) lam g) m) = eigen_q m.
Proof. apply eigen_lem. Qed.
Lemma C55_unique_lem m b : det m = 1 -> (m00 m + m11 m) * (m00 m + m11 m) < 4 -> 0 < b_ZR b ->
  value (propagate_matrix b m) = value b -> value b = eigen_q m.
Proof. intros H1 H2 H3 H4. by apply eigen_unique. Qed.
Lemma C55_example_lem : exists m, det m = 1 /\ (m00 m + m11 m) * (m00 m + m11 m) < 4 /\ m01 m <> 0.
Proof. exists (M2 1 1 (-1) 0). unfold det. simpl. lra. Qed.

Lemma C56_waist_lem Z W0 lam : 0 <= W0 -> 0 < lam -> let b := from_Z_W0 Z W0 lam in
  b_Z b = Z /\ b_W0 b = W0 /\ wavelen b = lam /\ b_ZR b = PI * (W0 * W0) / lam.
Proof. apply from_Z_W0_lem. Qed.
Lemma C56_rayleigh_lem Z ZR lam : let b := from_Z_ZR Z ZR lam in b_Z b = Z /\ b_ZR b = ZR /\ wavelen b = lam.
Proof. apply from_Z_ZR_lem. Qed.
Lemma C56_radius_lem W Rc lam : 0 < W -> 0 < lam -> let b := from_W_R W Rc lam in
  physical b /\ b_W b = W /\ wavelen b = lam /\ (Rc <> 0 -> b_R b = Rc) /\ (Rc = 0 -> b_R_inv b = 0).
Proof. apply from_W_R_lem. Qed.
Lemma C56_divergence_lem theta Z lam : 0 < theta -> 0 < lam ->
  b_divergence (from_dRad_Z theta Z lam) = theta /\ b_Z (from_dRad_Z theta Z lam) = Z.
Proof. apply divergence_lem. Qed.
Lemma C56_read_back_lem b : physical b ->
  value (from_Z_W0 (b_Z b) (b_W0 b) (wavelen b)) = value b /\ value (from_Z_ZR (b_Z b) (b_ZR b) (wavelen b)) = value b /\
  (b_Z b <> 0 -> value (from_W_R (b_W b) (b_R b) (wavelen b)) = value b) /\
  (b_Z b = 0 -> value (from_W_R (b_W b) 0 (wavelen b)) = value b).
Proof.
  intros Hb. split; [by apply from_Z_W0_back|]. split.
  - unfold from_Z_ZR, b_Z, b_ZR. destruct b as [[x y] lam g]. cpair. apply pair_eq_iff. split; ring.
  - pose proof (from_W_R_back b Hb) as E. destruct (Req_EM_T (b_Z b) 0); split; done.
Qed.
Lemma C56_size_lem b : physical b -> b_W b * b_W b = b_W0 b * b_W0 b * (1 + b_Z b / b_ZR b * (b_Z b / b_ZR b)).
Proof. apply W_formula. Qed.
Lemma C56_example_lem : exists b, physical b /\ b_Z b <> 0.
Proof. exists (Beam (1, 2) 3 1%F). unfold physical, b_ZR, b_Z. simpl. lra. Qed.

(** The focal power of a lens of no thickness *)
Lemma C66_lensmaker_lem reversed env n0 n_in n_out R1 R2 : n_in <> 0 -> n_out <> 0 -> R1 <> 0 -> R2 <> 0 ->
  val (matrix (build n0 env (CXCX reversed n_in n_out 0 R1 R2))) = M2 1 0 (- ((n_in / n_out - 1) * (1 / R1 + 1 / R2))) 1.
Proof.
  intros H1 H2 H3 H4. assert (- R2 <> 0) by lra. destruct env, reversed; simpl; unfold mmul; simpl; apply m2_eq; field; repeat split; done.
Qed.
Lemma C66_plano_lem reversed env n0 n_in n_out R1 : n_in <> 0 -> n_out <> 0 -> R1 <> 0 ->
  val (matrix (build n0 env (PLCX reversed n_in n_out 0 (Some R1)))) = M2 1 0 (- ((n_in / n_out - 1) * (1 / R1))) 1.
Proof.
  intros H1 H2 H3. destruct env, reversed; simpl; unfold mmul; simpl; apply m2_eq; field; repeat split; done.
Qed.
Lemma C66_mirror_lem reversed env n0 n_in n_out R1 : n_in <> 0 -> n_out <> 0 -> R1 <> 0 ->
  val (matrix (build n0 env (PLCXMirror reversed n_in n_out 0 (Some R1)))) = M2 1 0 (- (n_in / n_out) * (2 / R1)) 1.
Proof.
  intros H1 H2 H3. destruct env, reversed; simpl; unfold mmul; simpl; apply m2_eq; field; repeat split; done.
Qed.
(** a flat plate of index n and thickness L should look as long as L n_out/n *)
Lemma C66_plate_partial_lem reversed env n0 n_in n_out L : n_in <> 0 -> n_out <> 0 ->
  val (matrix (build n0 env (PLCX reversed n_in n_out L None))) = M2 1 (L * n_out / (n_in * n_in)) 0 1.
Proof.
  intros H1 H2. destruct env, reversed; simpl; unfold mmul; simpl; apply m2_eq; field; repeat split; done.
Qed.
Lemma C66_plate_refuted_lem : exists n0 n_in n_out L, n_in <> 0 /\ n_out <> 0 /\
  val (matrix (build n0 false (PLCX false n_in n_out L None))) <> M2 1 (L * n_out / n_in) 0 1.
Proof.
  exists 1, 2, 1, 1. split; [lra|]. split; [lra|]. simpl. unfold mmul. simpl. intros E. injection E. lra.
Qed.
Lemma C66_example_lem : exists n_in n_out R1 R2, n_in <> 0 /\ n_out <> 0 /\ R1 <> 0 /\ R2 <> 0 /\ (n_in / n_out - 1) * (1 / R1 + 1 / R2) <> 0.
Proof. exists 2, 1, 3, 6. lra. Qed.

Lemma C67_self_lem a : physical a -> overlap a a = 1%F.
Proof. apply overlap_self. Qed.
Lemma C67_conjugate_lem a b : physical a -> physical b -> wavelen a = wavelen b -> overlap b a = cconj (overlap a b).
Proof. apply overlap_conj. Qed.
Lemma C67_bound_lem a b : physical a -> physical b -> wavelen a = wavelen b ->
  mag2 (overlap a b) <= 1 /\ (mag2 (overlap a b) = 1 <-> value a = value b).
Proof. apply overlap_le. Qed.
Lemma C67_formula_lem a b : physical a -> physical b -> wavelen a = wavelen b ->
  mag2 (overlap a b) * ((b_Z a - b_Z b) * (b_Z a - b_Z b) + (b_ZR a + b_ZR b) * (b_ZR a + b_ZR b)) = 4 * b_ZR a * b_ZR b.
Proof. intros Ha Hb El. rewrite overlap_mag by done. fold (gap2 a b). pose proof (gap_pos a b Ha Hb). field. lra. Qed.
Lemma C67_invariant_lem a b m : physical a -> physical b -> wavelen a = wavelen b -> 0 < det m ->
  mag2 (overlap (propagate_matrix a m) (propagate_matrix b m)) = mag2 (overlap a b).
Proof. apply overlap_abcd. Qed.
(** with two wavelengths the overlap of a with b and that of b with a differ in size *)
Lemma C67_wavelength_refuted_lem : exists a b, physical a /\ physical b /\ overlap b a <> cconj (overlap a b).
Proof.
  exists (Beam (0, 1) 1 1%F), (Beam (0, 1) 2 1%F). assert (physical (Beam (0, 1) 1 1%F)) as Ha by (unfold physical, b_ZR; simpl; lra).
  assert (physical (Beam (0, 1) 2 1%F)) as Hb by (unfold physical, b_ZR; simpl; lra). split; [done|]. split; [done|].
  pose proof (W_pos _ Ha) as Wa. pose proof (W_pos _ Hb) as Wb. pose proof PI_RGT_0. unfold overlap. set (wa := b_W (Beam (0, 1) 1 1%F)) in *. set (wb := b_W (Beam (0, 1) 2 1%F)) in *.
  cbn [wavelen value]. assert (0 < wa * wb * PI) as Hp by (apply Rmult_lt_0_compat; [nra|done]).
  assert (0 < / (wa * wb * PI)) as Hk by (by apply Rinv_0_lt_compat). rewrite (Rmult_comm wb wa). unfold Rdiv. set (k := / (wa * wb * PI)) in *. clearbody k.
  cpair. intros E. apply (f_equal fst) in E. simpl in E. field_simplify in E. lra.
Qed.
Lemma C67_example_lem : exists a b, physical a /\ physical b /\ wavelen a = wavelen b /\ value a <> value b.
Proof.
  exists (Beam (1, 2) 3 1%F), (Beam (2, 2) 3 1%F). unfold physical, b_ZR. simpl. repeat split; try lra. intros E. apply (f_equal fst) in E. simpl in E. lra.
Qed.

Lemma C68_root_lem b : physical b -> let s := sensitivity_sqrt b in
  mmul s s = M2 (- m00 (sensitivity b)) (- m01 (sensitivity b)) (- m10 (sensitivity b)) (- m11 (sensitivity b)).
Proof. apply sens_lem. Qed.
Lemma C68_telescope_lem L1 R : L1 <> 0 -> R <> 0 -> val (matrix_telescope L1 R 0) = M2 R (L1 - R * L1) 0 (1 / R).
Proof.
  intros H1 H2. unfold matrix_telescope. rewrite !focus_0. simpl. unfold mmul. simpl. apply m2_eq; field; repeat split; done.
Qed.
Lemma C68_focus_lem f dL x y : f <> 0 -> 
  ray (val (matrix_focus (Some f) dL)) (ray (val (matrix_space dL)) (x, y)) = ray (val (matrix_space dL)) (x, y - x / f).
Proof.
  intros Hf. unfold matrix_focus. destruct (Req_EM_T dL 0) as [->|Hd]; simpl; unfold ray, mmul; simpl; apply pair_eq_iff; split; field; done.
Qed.
Lemma C68_example_lem : exists L1 R, L1 <> 0 /\ R <> 0 /\ R <> 1.
Proof. exists 1, (-2). lra. Qed.

Lemma C69_from_left_lem l z : tree_ok (Node l) -> lengths_ok (Node l) ->
  exists m, to_z (Node l) left_ z = Ok m /\ val m = if Rlt_dec z 0 then M2 1 z 0 1 else walk (flat (Node l)) z.
Proof.
  intros Ht Hl. unfold to_z. destruct (Rlt_dec z 0) as [Hz|Hz].
  - pose proof Hl as Hl'. simpl in Hl'. apply lens_foldr in Hl'. exists (matrix_space z). split; [|done]. cbn [depth]. by apply to_z_before.
  - destruct (to_z_left (depth (Node l)) (Node l) z) as (m & E & _ & H); [lia|done|done|lra|right; by exists l|]. by exists m.
Qed.
Lemma C69_from_target_lem l a z : tree_ok (Node l) -> lengths_ok (Node l) -> target (Node l) a ->
  exists m x, to_z (Node l) a z = Ok m /\ between (Node l) left_ a = Ok x /\
    (plane (flat (Node l)) z (mmul (val m) (val x)) \/ z < 0 /\ mmul (val m) (val x) = M2 1 z 0 1).
Proof.
  intros Ht Hl Va. destruct (to_z_plane (depth (Node l)) (Node l) a z) as (m & E & _ & H); [lia|done|done|done|right; by exists l|].
  destruct (between_val (Node l) left_ a Ht (valid_left _) Va) as (x & Ex & _ & Hx). exists m, x. split; [done|]. split; [done|].
  cbn [path at_ left_] in Hx. rewrite upto_left, mmul_I_r in Hx. rewrite Hx. exact H.
Qed.
Lemma C69_agree_lem l a b z : tree_ok (Node l) -> lengths_ok (Node l) -> target (Node l) a -> target (Node l) b ->
  ~ thin_at (flat (Node l)) z ->
  exists m m' x, to_z (Node l) a z = Ok m /\ to_z (Node l) b z = Ok m' /\ between (Node l) a b = Ok x /\ val m = mmul (val m') (val x).
Proof.
  intros Ht Hl Va Vb Hz. destruct (to_z_plane (depth (Node l)) (Node l) a z) as (m & E & _ & H); [lia|done|done|done|right; by exists l|].
  destruct (to_z_plane (depth (Node l)) (Node l) b z) as (m' & E' & _ & H'); [lia|done|done|done|right; by exists l|].
  destruct (between_val (Node l) a b Ht Va Vb) as (x & Ex & _ & Hx). exists m, m', x. split; [done|]. split; [done|]. split; [done|].
  apply (cancel_r _ _ (upto (Node l) (path a) (at_ a))); [by apply upto_det|]. rewrite <- mmul_assoc, Hx.
  pose proof (lens_flat _ Hl) as Hlf. pose proof (flat_leaf (Node l)) as Hlv.
  destruct H as [H|[Hz1 H]], H' as [H'|[Hz2 H']].
  - rewrite (plane_walk _ _ _ Hlf Hlv Hz H), (plane_walk _ _ _ Hlf Hlv Hz H'). done.
  - apply plane_nn in H; [lra|done].
  - apply plane_nn in H'; [lra|done].
  - by rewrite H, H'.
Qed.
(** at a lens the plane meant depends on the target *)
Lemma C69_lens_refuted_lem : exists l a b z m m' x, tree_ok (Node l) /\ lengths_ok (Node l) /\ target (Node l) a /\ target (Node l) b /\
  to_z (Node l) a z = Ok m /\ to_z (Node l) b z = Ok m' /\ between (Node l) a b = Ok x /\ val m <> mmul (val m') (val x).
Proof.
  exists [Thin (ThinLens 1) false], (Tidx [0%nat] TL), (Tidx [0%nat] TR), 0. do 3 eexists.
  split; [simpl; repeat split; (done || lra)|]. split; [done|]. split; [done|]. split; [done|].
  unfold to_z, between. simpl. unfold sorted_right, sorted_left. rewrite !Rplus_0_r. simpl.
  destruct (Rlt_dec 0 0); [lra|]. destruct (Rle_dec 0 0); [|lra]. simpl. destruct (Req_EM_T (0 - 0) 0); [|lra]. simpl.
  split; [done|]. split; [done|]. split; [done|]. rewrite !focus_0. simpl. unfold mmul. simpl. intros E. apply (f_equal m10) in E. simpl in E. replace (-1 / - (1)) with 1 in E by field. lra.
Qed.
Lemma C69_place_lem l a : tree_ok (Node l) -> lengths_ok (Node l) -> target (Node l) a ->
  exists x m, target_pos (Node l) a = Ok x /\ 0 <= x <= width (Node l) /\
    between (Node l) left_ a = Ok m /\ plane (flat (Node l)) x (val m).
Proof.
  intros Ht Hl Va. destruct (target_pos_lem (path a) (S (length (path a))) (Node l) (at_ a)) as (x & Ex & Hx & Hp); [lia|done|done|].
  destruct (between_val (Node l) left_ a Ht (valid_left _) Va) as (m & Em & _ & Hm). exists x, m. split; [by destruct a|]. split; [done|]. split; [done|].
  cbn [path at_ left_] in Hm. rewrite upto_left, mmul_I_r in Hm. by rewrite Hm.
Qed.
Lemma C69_example_lem : exists l a z, tree_ok (Node l) /\ lengths_ok (Node l) /\ target (Node l) a /\ ~ thin_at (flat (Node l)) z.
Proof.
  exists [Thin (ThinLens 1) false; Sp 3 1], (Tidx [1%nat] TR), 2. split; [simpl; repeat split; (done || lra)|]. split; [simpl; split; [done|]; split; [lra|done]|]. split; [done|]. simpl. intros [H|H]; [lra|done].
Qed.
