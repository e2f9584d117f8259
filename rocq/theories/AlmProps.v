(** Theorems about ray matrices and beams.  C52-C56, C66-C69. *)
From stdpp Require Import base tactics list numbers.
From Coq Require Import Reals Lra Psatz.
From Verif Require Import Fld Py Herm OptRot SigModel SigProofs AlmModel AlmSpec AlmProofs AlmProofs2 AlmProofs3 AlmProofs4 AlmFinal.
Local Open Scope R_scope.

Theorem C52_defined t a b : tree_ok t -> ((exists m, between t a b = Ok m) <-> target t a /\ target t b).
Proof. eapply C52_defined_lem. Qed.
Theorem C52_compose t a b c x y : tree_ok t -> between t a b = Ok x -> between t b c = Ok y ->
  exists z, between t a c = Ok z /\ val z = mmul (val y) (val x).
Proof. eapply C52_compose_lem. Qed.
Theorem C52_inverse t a b x : tree_ok t -> between t a b = Ok x ->
  exists y, between t b a = Ok y /\ mmul (val y) (val x) = I2 /\ mmul (val x) (val y) = I2.
Proof. eapply C52_inverse_lem. Qed.
Theorem C52_here t a : tree_ok t -> target t a -> exists m, between t a a = Ok m /\ val m = I2.
Proof. eapply C52_here_lem. Qed.
Theorem C52_whole t : tree_ok t ->
  exists m, between t left_ right_ = Ok m /\ val m = foldl (fun m c => mmul (val (matrix c)) m) I2 (flat t).
Proof. eapply C52_whole_lem. Qed.
Theorem C52_determinant t n a b m : tree_ok t -> matched t n -> n <> 0 -> between t a b = Ok m ->
  det (val m) = index t n (path a) (at_ a) / index t n (path b) (at_ b).
Proof. eapply C52_determinant_lem. Qed.
Theorem C52_empty_refuted : exists t a b, target t a /\ target t b /\ between t a b = Err ZeroDivisionError.
Proof. eapply C52_empty_refuted_lem. Qed.
Example C52_example : exists t n a b, tree_ok t /\ matched t n /\ n <> 0 /\ target t a /\ target t b /\ t <> Tgt /\
  index t n (path a) (at_ a) <> index t n (path b) (at_ b).
Proof. eapply C52_example_lem. Qed.

Theorem C53_inverse t : tree_ok t ->
  exists i, matrix_inv t = Ok i /\ mmul (val i) (val (matrix t)) = I2 /\ mmul (val (matrix t)) (val i) = I2.
Proof. eapply C53_inverse_lem. Qed.
Theorem C53_built n0 env c : n0 <> 0 -> comp_ok c -> tree_ok (build n0 env c).
Proof. eapply C53_built_lem. Qed.
Theorem C53_reversal n0 env c r : n0 <> 0 -> comp_ok c -> no_generic c ->
  ray (val (matrix (build n0 (negb env) c))) (back (ray (val (matrix (build n0 env c))) r)) = back r /\
  width (build n0 (negb env) c) = width (build n0 env c).
Proof. eapply C53_reversal_lem. Qed.
Theorem C53_generic_refuted : exists n0 c r, n0 <> 0 /\ comp_ok c /\
  ray (val (matrix (build n0 true c))) (back (ray (val (matrix (build n0 false c))) r)) <> back r.
Proof. eapply C53_generic_refuted_lem. Qed.
Example C53_example : exists n0 c, n0 <> 0 /\ comp_ok c /\ no_generic c /\ matrix (build n0 true c) <> matrix (build n0 false c).
Proof. eapply C53_example_lem. Qed.

Theorem C54_compose b m m' : physical b -> 0 < det m -> 0 < det m' ->
  let b1 := propagate_matrix (propagate_matrix b m) m' in let b2 := propagate_matrix b (mmul m' m) in
  value b1 = value b2 /\ wavelen b1 = wavelen b2 /\ same_phase (gouy b1) (gouy b2).
Proof. eapply C54_compose_lem. Qed.
Theorem C54_physical b m : physical b -> 0 < det m -> physical (propagate_matrix b m).
Proof. eapply C54_physical_lem. Qed.
Theorem C54_distance b L : physical b ->
  let b' := propagate_distance b L in
  b_Z b' = b_Z b + L /\ b_ZR b' = b_ZR b /\ b_W0 b' = b_W0 b /\ wavelen b' = wavelen b /\
  same_phase (gouy b') (gouy b * (value b / value b'))%F.
Proof. eapply C54_distance_lem. Qed.
Theorem C54_reverse b m mr : physical b -> 0 < det m -> (forall r, ray mr (back (ray m r)) = back r) ->
  value (propagate_matrix (b_reversed (propagate_matrix b m)) mr) = value (b_reversed b) /\
  wavelen (propagate_matrix (b_reversed (propagate_matrix b m)) mr) = wavelen b.
Proof. eapply C54_reverse_lem. Qed.
Example C54_example : exists b m m', physical b /\ 0 < det m /\ 0 < det m' /\ det m <> 1 /\ value (propagate_matrix b m) <> value b.
Proof. eapply C54_example_lem. Qed.

Theorem C55_fixed m lam g : det m = 1 -> (m00 m + m11 m) * (m00 m + m11 m) < 4 ->
  0 < b_ZR (Beam (eigen_q m) lam g) /\ value (propagate_matrix (Beam (eigen_q m) lam g) m) = eigen_q m.
Proof. eapply C55_fixed_lem. Qed.
Theorem C55_unique m b : det m = 1 -> (m00 m + m11 m) * (m00 m + m11 m) < 4 -> 0 < b_ZR b ->
  value (propagate_matrix b m) = value b -> value b = eigen_q m.
Proof. eapply C55_unique_lem. Qed.
Example C55_example : exists m, det m = 1 /\ (m00 m + m11 m) * (m00 m + m11 m) < 4 /\ m01 m <> 0.
Proof. eapply C55_example_lem. Qed.

Theorem C56_waist Z W0 lam : 0 <= W0 -> 0 < lam -> let b := from_Z_W0 Z W0 lam in
  b_Z b = Z /\ b_W0 b = W0 /\ wavelen b = lam /\ b_ZR b = PI * (W0 * W0) / lam.
Proof. eapply C56_waist_lem. Qed.
Theorem C56_rayleigh Z ZR lam : let b := from_Z_ZR Z ZR lam in b_Z b = Z /\ b_ZR b = ZR /\ wavelen b = lam.
Proof. eapply C56_rayleigh_lem. Qed.
Theorem C56_radius W Rc lam : 0 < W -> 0 < lam -> let b := from_W_R W Rc lam in
  physical b /\ b_W b = W /\ wavelen b = lam /\ (Rc <> 0 -> b_R b = Rc) /\ (Rc = 0 -> b_R_inv b = 0).
Proof. eapply C56_radius_lem. Qed.
Theorem C56_divergence theta Z lam : 0 < theta -> 0 < lam ->
  b_divergence (from_dRad_Z theta Z lam) = theta /\ b_Z (from_dRad_Z theta Z lam) = Z.
Proof. eapply C56_divergence_lem. Qed.
Theorem C56_read_back b : physical b ->
  value (from_Z_W0 (b_Z b) (b_W0 b) (wavelen b)) = value b /\ value (from_Z_ZR (b_Z b) (b_ZR b) (wavelen b)) = value b /\
  (b_Z b <> 0 -> value (from_W_R (b_W b) (b_R b) (wavelen b)) = value b) /\
  (b_Z b = 0 -> value (from_W_R (b_W b) 0 (wavelen b)) = value b).
Proof. eapply C56_read_back_lem. Qed.
Theorem C56_size b : physical b -> b_W b * b_W b = b_W0 b * b_W0 b * (1 + b_Z b / b_ZR b * (b_Z b / b_ZR b)).
Proof. eapply C56_size_lem. Qed.
Example C56_example : exists b, physical b /\ b_Z b <> 0.
Proof. eapply C56_example_lem. Qed.

(** The focal power of a lens of no thickness *)
Theorem C66_lensmaker reversed env n0 n_in n_out R1 R2 : n_in <> 0 -> n_out <> 0 -> R1 <> 0 -> R2 <> 0 ->
  val (matrix (build n0 env (CXCX reversed n_in n_out 0 R1 R2))) = M2 1 0 (- ((n_in / n_out - 1) * (1 / R1 + 1 / R2))) 1.
Proof. eapply C66_lensmaker_lem. Qed.
Theorem C66_plano reversed env n0 n_in n_out R1 : n_in <> 0 -> n_out <> 0 -> R1 <> 0 ->
  val (matrix (build n0 env (PLCX reversed n_in n_out 0 (Some R1)))) = M2 1 0 (- ((n_in / n_out - 1) * (1 / R1))) 1.
Proof. eapply C66_plano_lem. Qed.
Theorem C66_mirror reversed env n0 n_in n_out R1 : n_in <> 0 -> n_out <> 0 -> R1 <> 0 ->
  val (matrix (build n0 env (PLCXMirror reversed n_in n_out 0 (Some R1)))) = M2 1 0 (- (n_in / n_out) * (2 / R1)) 1.
Proof. eapply C66_mirror_lem. Qed.
(** a flat plate of index n and thickness L should look as long as L n_out/n *)
Theorem C66_plate_partial reversed env n0 n_in n_out L : n_in <> 0 -> n_out <> 0 ->
  val (matrix (build n0 env (PLCX reversed n_in n_out L None))) = M2 1 (L * n_out / (n_in * n_in)) 0 1.
Proof. eapply C66_plate_partial_lem. Qed.
Theorem C66_plate_refuted : exists n0 n_in n_out L, n_in <> 0 /\ n_out <> 0 /\
  val (matrix (build n0 false (PLCX false n_in n_out L None))) <> M2 1 (L * n_out / n_in) 0 1.
Proof. eapply C66_plate_refuted_lem. Qed.
Example C66_example : exists n_in n_out R1 R2, n_in <> 0 /\ n_out <> 0 /\ R1 <> 0 /\ R2 <> 0 /\ (n_in / n_out - 1) * (1 / R1 + 1 / R2) <> 0.
Proof. eapply C66_example_lem. Qed.

Theorem C67_self a : physical a -> overlap a a = 1%F.
Proof. eapply C67_self_lem. Qed.
Theorem C67_conjugate a b : physical a -> physical b -> wavelen a = wavelen b -> overlap b a = cconj (overlap a b).
Proof. eapply C67_conjugate_lem. Qed.
Theorem C67_bound a b : physical a -> physical b -> wavelen a = wavelen b ->
  mag2 (overlap a b) <= 1 /\ (mag2 (overlap a b) = 1 <-> value a = value b).
Proof. eapply C67_bound_lem. Qed.
Theorem C67_formula a b : physical a -> physical b -> wavelen a = wavelen b ->
  mag2 (overlap a b) * ((b_Z a - b_Z b) * (b_Z a - b_Z b) + (b_ZR a + b_ZR b) * (b_ZR a + b_ZR b)) = 4 * b_ZR a * b_ZR b.
Proof. eapply C67_formula_lem. Qed.
Theorem C67_invariant a b m : physical a -> physical b -> wavelen a = wavelen b -> 0 < det m ->
  mag2 (overlap (propagate_matrix a m) (propagate_matrix b m)) = mag2 (overlap a b).
Proof. eapply C67_invariant_lem. Qed.
(** with two wavelengths the overlap of a with b and that of b with a differ in size *)
Theorem C67_wavelength_refuted : exists a b, physical a /\ physical b /\ overlap b a <> cconj (overlap a b).
Proof. eapply C67_wavelength_refuted_lem. Qed.
Example C67_example : exists a b, physical a /\ physical b /\ wavelen a = wavelen b /\ value a <> value b.
Proof. eapply C67_example_lem. Qed.

Theorem C68_root b : physical b -> let s := sensitivity_sqrt b in
  mmul s s = M2 (- m00 (sensitivity b)) (- m01 (sensitivity b)) (- m10 (sensitivity b)) (- m11 (sensitivity b)).
Proof. eapply C68_root_lem. Qed.
Theorem C68_telescope L1 R : L1 <> 0 -> R <> 0 -> val (matrix_telescope L1 R 0) = M2 R (L1 - R * L1) 0 (1 / R).
Proof. eapply C68_telescope_lem. Qed.
Theorem C68_focus f dL x y : f <> 0 -> 
  ray (val (matrix_focus (Some f) dL)) (ray (val (matrix_space dL)) (x, y)) = ray (val (matrix_space dL)) (x, y - x / f).
Proof. eapply C68_focus_lem. Qed.
Example C68_example : exists L1 R, L1 <> 0 /\ R <> 0 /\ R <> 1.
Proof. eapply C68_example_lem. Qed.

Theorem C69_from_left l z : tree_ok (Node l) -> lengths_ok (Node l) ->
  exists m, to_z (Node l) left_ z = Ok m /\ val m = if Rlt_dec z 0 then M2 1 z 0 1 else walk (flat (Node l)) z.
Proof. eapply C69_from_left_lem. Qed.
Theorem C69_from_target l a z : tree_ok (Node l) -> lengths_ok (Node l) -> target (Node l) a ->
  exists m x, to_z (Node l) a z = Ok m /\ between (Node l) left_ a = Ok x /\
    (plane (flat (Node l)) z (mmul (val m) (val x)) \/ z < 0 /\ mmul (val m) (val x) = M2 1 z 0 1).
Proof. eapply C69_from_target_lem. Qed.
Theorem C69_agree l a b z : tree_ok (Node l) -> lengths_ok (Node l) -> target (Node l) a -> target (Node l) b ->
  ~ thin_at (flat (Node l)) z ->
  exists m m' x, to_z (Node l) a z = Ok m /\ to_z (Node l) b z = Ok m' /\ between (Node l) a b = Ok x /\ val m = mmul (val m') (val x).
Proof. eapply C69_agree_lem. Qed.
(** at a lens the plane meant depends on the target *)
Theorem C69_lens_refuted : exists l a b z m m' x, tree_ok (Node l) /\ lengths_ok (Node l) /\ target (Node l) a /\ target (Node l) b /\
  to_z (Node l) a z = Ok m /\ to_z (Node l) b z = Ok m' /\ between (Node l) a b = Ok x /\ val m <> mmul (val m') (val x).
Proof. eapply C69_lens_refuted_lem. Qed.
Theorem C69_place l a : tree_ok (Node l) -> lengths_ok (Node l) -> target (Node l) a ->
  exists x m, target_pos (Node l) a = Ok x /\ 0 <= x <= width (Node l) /\
    between (Node l) left_ a = Ok m /\ plane (flat (Node l)) x (val m).
Proof. eapply C69_place_lem. Qed.
Example C69_example : exists l a z, tree_ok (Node l) /\ lengths_ok (Node l) /\ target (Node l) a /\ ~ thin_at (flat (Node l)) z.
Proof. eapply C69_example_lem. Qed.

Print Assumptions C52_defined.
Print Assumptions C52_compose.
Print Assumptions C52_inverse.
Print Assumptions C52_here.
Print Assumptions C52_whole.
Print Assumptions C52_determinant.
Print Assumptions C52_empty_refuted.
Print Assumptions C53_inverse.
Print Assumptions C53_built.
Print Assumptions C53_reversal.
Print Assumptions C53_generic_refuted.
Print Assumptions C54_compose.
Print Assumptions C54_physical.
Print Assumptions C54_distance.
Print Assumptions C54_reverse.
Print Assumptions C55_fixed.
Print Assumptions C55_unique.
Print Assumptions C56_waist.
Print Assumptions C56_rayleigh.
Print Assumptions C56_radius.
Print Assumptions C56_divergence.
Print Assumptions C56_read_back.
Print Assumptions C56_size.
Print Assumptions C66_lensmaker.
Print Assumptions C66_plano.
Print Assumptions C66_mirror.
Print Assumptions C66_plate_partial.
Print Assumptions C66_plate_refuted.
Print Assumptions C67_self.
Print Assumptions C67_conjugate.
Print Assumptions C67_bound.
Print Assumptions C67_formula.
Print Assumptions C67_invariant.
Print Assumptions C67_wavelength_refuted.
Print Assumptions C68_root.
Print Assumptions C68_telescope.
Print Assumptions C68_focus.
Print Assumptions C69_from_left.
Print Assumptions C69_from_target.
Print Assumptions C69_agree.
Print Assumptions C69_lens_refuted.
Print Assumptions C69_place.
