(** What the optimum ("Legendre-Papoulis") filters are. *)
From Coq Require Import Reals.
From stdpp Require Import base tactics list numbers.
From Verif Require Import Fld Py Herm OptModel SigModel ZpkModel ZpkSpec LegModel.

(** the polynomial with these coefficients, the highest power first, at a real and at a complex number *)
Definition value (c : list Z) (w : R) : R := foldl (fun acc z => acc * w + IZR z)%R 0%R c.
Definition cvalue (c : list Z) (s : C_fld) : C_fld := foldl (fun acc z => (acc * s + cre (IZR z))%F) 0%F c.

(** Legendre's polynomials: P_0 = 1, P_1 = x, (n+2) P_(n+2) = (2n+3) x P_(n+1) - (n+1) P_n *)
Definition legendre_family (P : nat -> R -> R) : Prop :=
  (forall x, P 0%nat x = 1 /\ P 1%nat x = x)%R /\
  (forall n x, (INR n + 2) * P (S (S n)) x = (2 * INR n + 3) * x * P (S n) x - (INR n + 1) * P n x)%R.
(** Papoulis' integrands: for the odd order 2k+1 the square of the sum of (2n+1) P_n over n <= k, over
    2 (k+1)^2; for the even order 2k+2 the sum is over the n of k's parity, its square is multiplied by
    x + 1 and divided by (k+1)(k+2) *)
Definition odd_integrand (P : nat -> R -> R) (k : nat) (x : R) : R :=
  ((sum_f_R0 (fun n => (2 * INR n + 1) * P n x) k) ^ 2 / (2 * (INR k + 1) ^ 2))%R.
Definition even_integrand (P : nat -> R -> R) (k : nat) (x : R) : R :=
  ((x + 1) * (sum_f_R0 (fun n => if Nat.even (k + n) then (2 * INR n + 1) * P n x else 0) k) ^ 2 / ((INR k + 1) * (INR k + 2)))%R.

(** the list of all the roots of the polynomial, each as often as its multiplicity *)
Definition roots_of (c : list Z) (l : list C_fld) : Prop :=
  exists k : C_fld, forall s : C_fld, cvalue c s = (k * product ((fun r => s - r) <$> l))%F.

(** the function finds all the roots of a polynomial that is 1 + L_N(w) at s = i w *)
Definition finds_roots (roots : list Z -> list C_fld) (N : nat) : Prop :=
  forall c, (forall w : R, cvalue c (ci * cre w)%F = cre (1 + value (optimum_poly N) w)%R) -> roots_of c (roots c).

(** the squared magnitude of the response of a filter at the angular frequency w *)
Definition response (t : tri) (w : R) : R := let h : C_fld := transfer t (ci * cre w)%F in (h.1 * h.1 + h.2 * h.2)%R.
