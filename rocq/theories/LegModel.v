(** Model of phasor/signals/filters/legendre_filters.py, optimum_poly and legendreap.  Fractions are
    exact rationals, numpy's polynomials the lists of their coefficients in increasing powers.  numpy's
    conversion of a Legendre series is modelled by the sum of the Legendre polynomials, these by their
    recursion, and not by the Clenshaw scheme numpy uses.  _roots is an argument: the theorems say what
    is wanted of it.  Not modelled: its ValueError above order 25 without mpmath, and rounding. *)
From Coq Require Import Reals QArith.
From stdpp Require Import base tactics list numbers.
From Verif Require Import Fld Py Herm OptModel SigModel ZpkModel.
Local Open Scope Q_scope.

Definition poly := list Q.
(** numpy.polynomial: sum, product with a number, product *)
Fixpoint padd (p q : poly) : poly :=
  match p, q with
  | [], _ => q
  | _, [] => p
  | a :: p', b :: q' => (a + b) :: padd p' q'
  end.
Definition pscale (c : Q) (p : poly) : poly := Qmult c <$> p.
Fixpoint pmul (p q : poly) : poly :=
  match p with [] => [] | a :: p' => padd (pscale a q) (0 :: pmul p' q) end.
(** polyint: the integral without constant *)
Definition polyint (p : poly) : poly := 0 :: imap (fun i c => c / inject_Z (Z.of_nat i + 1)) p.
(** a polynomial called with a number or with a polynomial: Horner's scheme (polyval) *)
Definition pval (p : poly) (x : Q) : Q := foldr (fun c acc => c + acc * x) 0 p.
Definition pcomp (p q : poly) : poly := foldr (fun c acc => padd [c] (pmul acc q)) [] p.

(** the Legendre polynomials P_n and P_(n+1): (n+2) P_(n+2) = (2n+3) x P_(n+1) - (n+1) P_n *)
Fixpoint legendre2 (n : nat) : poly * poly :=
  match n with
  | O => ([1], [0; 1])
  | S m =>
    let '(a, b) := legendre2 m in
    (b, pscale (1 / inject_Z (Z.of_nat m + 2))
          (padd (pscale (inject_Z (2 * Z.of_nat m + 3)) (0 :: b)) (pscale (- inject_Z (Z.of_nat m + 1)) a)))
  end.
Definition legendre (n : nat) : poly := (legendre2 n).1.
(** 74-77 polynomial.Legendre(a, domain) and convert *)
Definition series (a : list Q) : poly := foldr padd [] (imap (fun n c => pscale c (legendre n)) a).

(** 56, 61 np.arange(1, 2*(k + 1) + 1, 2) *)
Definition arange (k : nat) : list Q := (fun n => inject_Z (2 * Z.of_nat n + 1)) <$> seq 0 (S k).
(** 67, 70 a[start::2] = 0 *)
Definition zero_from (start : nat) (a : list Q) : list Q := imap (fun i x => if decide (Nat.modulo i 2 = start) then 0 else x) a.
(** 54-70 k and a *)
Definition order_k (N : nat) : nat := if decide (Nat.modulo N 2 = 1%nat) then Nat.div (N - 1) 2 else Nat.div (N - 2) 2.
Definition weights (N : nat) : list Q :=
  let k := order_k N in
  if decide (Nat.modulo N 2 = 1%nat) then arange k
  else if decide (Nat.modulo k 2 = 1%nat) then zero_from 0 (arange k) else zero_from 1 (arange k).
(** 79-85 the integrand *)
Definition integrand (N : nat) : poly :=
  let k := Z.of_nat (order_k N) in
  let v := series (weights N) in
  if decide (Nat.modulo N 2 = 1%nat) then pscale (1 / inject_Z (2 * ((k + 1) * (k + 1)))) (pmul v v)
  else pscale (1 / inject_Z ((k + 1) * (k + 2))) (pmul [1; 1] (pmul v v)).
(** 88-91 the integral from -1 to 2 omega^2 - 1, a polynomial in omega *)
Definition defint (N : nat) : poly :=
  let indef := polyint (integrand N) in
  padd (pcomp indef [- (1); 0; 2]) [- pval indef (- (1))].
(** 95 int(x) of a Fraction truncates *)
Definition int_of (q : Q) : Z := Z.quot (Qnum q) (Zpos (Qden q)).
(** 31-95; in decreasing powers *)
Definition optimum_poly (N : nat) : list Z :=
  match N with O => [0%Z] | _ => rev (int_of <$> defint N) end.

(** 144 a[-1] = 1 *)
Definition set_last (a : list Z) : list Z := match rev a with [] => [] | _ :: r => rev (1%Z :: r) end.
(** 148 a[-3::-4] negated *)
Definition negate_back (a : list Z) : list Z :=
  rev (imap (fun i x => if decide (Nat.modulo i 4 = 2%nat) then (- x)%Z else x) (rev a)).
(** 133-161 legendreap; [roots] is _roots *)
Definition lefts (l : list C_fld) : list C_fld := filter (fun r : C_fld => Is_true (if Rlt_dec r.1 0 then true else false)) l.
Definition legendreap (roots : list Z -> list C_fld) (N : nat) : tri :=
  let p := lefts (roots (negate_back (set_last (optimum_poly N)))) in
  Tri [] p (foldr (fun r acc => ((C_abs r : C_fld) * acc)%F) 1%F p).
