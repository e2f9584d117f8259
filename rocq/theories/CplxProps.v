(** Theorems about the Complex class.  C24 - C27. *)
From Coq Require Import Reals.
From stdpp Require Import base tactics list numbers.
From Verif Require Import Py CplxModel CplxSpec CplxProofs.
Local Open Scope R_scope.

(** C24: commutative ring laws. *)
Theorem C24_ring (a b c : pc) :
  pc_add a (OCplx b) = pc_add b (OCplx a) /\
  pc_add a (OCplx (pc_add b (OCplx c))) = pc_add (pc_add a (OCplx b)) (OCplx c) /\
  pc_add a (OCplx pc_0) = a /\ pc_add a (OCplx (pc_neg a)) = pc_0 /\
  pc_sub a (OCplx b) = pc_add a (OCplx (pc_neg b)) /\
  pc_mul a (OCplx b) = pc_mul b (OCplx a) /\
  pc_mul a (OCplx (pc_mul b (OCplx c))) = pc_mul (pc_mul a (OCplx b)) (OCplx c) /\
  pc_mul a (OCplx pc_1) = a /\
  pc_mul a (OCplx (pc_add b (OCplx c))) = pc_add (pc_mul a (OCplx b)) (OCplx (pc_mul a (OCplx c))).
Proof. exact (ring_laws a b c). Qed.
Print Assumptions C24_ring.

(** C24: real operands and the reflected operators agree with the plain ones. *)
Theorem C24_operands (a : pc) (o : operand) :
  pc_add a o = pc_add a (OCplx (o_val o)) /\ pc_radd a o = pc_add (o_val o) (OCplx a) /\
  pc_sub a o = pc_sub a (OCplx (o_val o)) /\ pc_rsub a o = pc_sub (o_val o) (OCplx a) /\
  pc_mul a o = pc_mul a (OCplx (o_val o)) /\ pc_rmul a o = pc_mul (o_val o) (OCplx a) /\
  pc_div a o = pc_div a (OCplx (o_val o)) /\ pc_rdiv a o = pc_div (o_val o) (OCplx a).
Proof. exact (operands a o). Qed.
Print Assumptions C24_operands.

(** C24: division is the inverse of multiplication, and raises exactly at zero. *)
Theorem C24_division (a b : pc) :
  (b = pc_0 -> pc_div a (OCplx b) = Err ZeroDivisionError) /\
  (b <> pc_0 -> exists q, pc_div a (OCplx b) = Ok q /\ pc_mul q (OCplx b) = a /\
     forall q', pc_mul q' (OCplx b) = a -> q' = q).
Proof. exact (division a b). Qed.
Print Assumptions C24_division.

(** C24: conjugation is an involutive automorphism. *)
Theorem C24_conjugate (a b : pc) :
  pc_conj (pc_add a (OCplx b)) = pc_add (pc_conj a) (OCplx (pc_conj b)) /\
  pc_conj (pc_mul a (OCplx b)) = pc_mul (pc_conj a) (OCplx (pc_conj b)) /\
  pc_conj (pc_conj a) = a /\ pc_conj pc_1 = pc_1 /\
  pc_mul a (OCplx (pc_conj a)) = PC (pc_abs_sq a) 0 /\
  (forall q, pc_div a (OCplx b) = Ok q -> pc_div (pc_conj a) (OCplx (pc_conj b)) = Ok (pc_conj q)).
Proof. exact (conj_laws a b). Qed.
Print Assumptions C24_conjugate.

(** C24: the modulus is a multiplicative norm. *)
Theorem C24_abs (a b : pc) :
  pc_abs (pc_mul a (OCplx b)) = pc_abs a * pc_abs b /\
  0 <= pc_abs a /\ pc_abs a * pc_abs a = pc_abs_sq a /\ (pc_abs a = 0 <-> a = pc_0) /\
  pc_abs (pc_conj a) = pc_abs a /\ pc_abs (pc_add a (OCplx b)) <= pc_abs a + pc_abs b.
Proof. exact (abs_laws a b). Qed.
Print Assumptions C24_abs.

(** C24: [==] decides equality of numbers. *)
Theorem C24_eq (a b : pc) :
  (pc_eq a (OCplx b) = Ok true <-> a = b) /\ (pc_eq a (OCplx b) = Ok false <-> a <> b).
Proof. exact (eq_spec a b). Qed.
Print Assumptions C24_eq.

(** C25: odd positive powers are the repeated product. *)
Theorem C25_odd_power_partial (z : pc) (n : Z) :
  (0 < n)%Z -> (n mod 2 = 1)%Z ->
  forall fuel, (1 <= fuel)%nat -> pc_pow_int fuel z n = Ok (pc_npow z (Z.to_nat n)).
Proof. exact (pow_odd z n). Qed.
Print Assumptions C25_odd_power_partial.
Example C25_case : (0 < 5)%Z /\ (5 mod 2 = 1)%Z.
Proof. done. Qed.

(** C25 (refutations): z**0 never returns, every other even power raises TypeError,
    and a negative odd power returns z itself. *)
Theorem C25_zero_power_refuted (z : pc) (fuel : nat) : pc_pow_int fuel z 0 = Err OutOfFuel.
Proof. exact (pow_zero z fuel). Qed.
Print Assumptions C25_zero_power_refuted.
Theorem C25_even_power_refuted (z : pc) (n : Z) :
  (n <> 0)%Z -> (n mod 2 = 0)%Z ->
  exists c, forall fuel, (c <= fuel)%nat -> pc_pow_int fuel z n = Err TypeError.
Proof. exact (pow_even z n). Qed.
Print Assumptions C25_even_power_refuted.
Theorem C25_negative_power_refuted (z : pc) (n : Z) :
  (n < 0)%Z -> (n mod 2 = 1)%Z ->
  forall fuel, (1 <= fuel)%nat -> pc_pow_int fuel z n = Ok z.
Proof. exact (pow_neg_odd z n). Qed.
Print Assumptions C25_negative_power_refuted.
(** C25: a fractional power of a symbolic real comes out conjugated (here (-1)**(1/2)
    taken through the general branch is -i, not i). *)
Theorem C25_general_power_refuted : exists z x, z <> pc_0 /\
  pc_pow_gen z (OBare x) = Ok (PC 0 (-1)) /\ pc_exp (PC 0 (pc_phase z * x)) = PC 0 1 /\ pc_abs z = 1.
Proof. exact pow_gen_wrong. Qed.
Print Assumptions C25_general_power_refuted.

(** C26: z**.5 is the principal square root of z, for every z. *)
Theorem C26_sqrt (z : pc) :
  pc_mul (pc_sqrt z) (OCplx (pc_sqrt z)) = z /\ 0 <= re (pc_sqrt z) /\
  (re (pc_sqrt z) = 0 -> 0 <= im (pc_sqrt z)).
Proof. exact (sqrt_spec z). Qed.
Print Assumptions C26_sqrt.

(** C27: the exponential. *)
Theorem C27_exp (z w : pc) :
  pc_abs (pc_exp z) = exp (re z) /\
  pc_exp (pc_add z (OCplx w)) = pc_mul (pc_exp z) (OCplx (pc_exp w)) /\
  pc_exp pc_0 = pc_1 /\ pc_exp (pc_conj z) = pc_conj (pc_exp z) /\
  pc_exp (PC (re z) (im z + 2 * PI)) = pc_exp z.
Proof. exact (exp_spec z w). Qed.
Print Assumptions C27_exp.

(** C27: the angle: |z| e^(i angle z) = z, in (-pi, pi], and its degree form. *)
Theorem C27_angle (z : pc) :
  pc_mul (PC (pc_abs z) 0) (OCplx (pc_exp (PC 0 (pc_angle z false)))) = z /\
  - PI < pc_angle z false <= PI /\ pc_angle z true = pc_angle z false * (180 / PI) /\
  -180 < pc_angle z true <= 180.
Proof. exact (angle_spec z). Qed.
Print Assumptions C27_angle.
