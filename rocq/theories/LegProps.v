(** C94: the optimum filters.  For every order the list of integers is the polynomial of Papoulis,
    without truncation error; it rises from 0, reaches 1 at the cutoff, and the filter has the
    response 1 / (1 + L), as many poles as its order, all stable, and unit gain at zero frequency. *)
From Coq Require Import Reals.
From stdpp Require Import base list numbers.
From Verif Require Import Fld Herm OptModel SigModel ZpkModel ZpkSpec LegModel LegSpec LegProofs LegFinal.

(** odd order: the derivative is that of the integral from -1 to 2 w^2 - 1 *)
Theorem C94_papoulis_odd : forall P k w, legendre_family P ->
  derivable_pt_lim (value (optimum_poly (2 * k + 1))) w (4 * w * odd_integrand P k (2 * w ^ 2 - 1))%R.
Proof. exact C94_papoulis_odd_lem. Qed.
Print Assumptions C94_papoulis_odd.
Theorem C94_papoulis_even : forall P k w, legendre_family P ->
  derivable_pt_lim (value (optimum_poly (2 * k + 2))) w (4 * w * even_integrand P k (2 * w ^ 2 - 1))%R.
Proof. exact C94_papoulis_even_lem. Qed.
Print Assumptions C94_papoulis_even.
(** there is such a family *)
Example C94_family_ex : legendre_family L.
Proof. exact L_family. Qed.

(** 0 at 0, so the two theorems above determine it, and 1 at the cutoff *)
Theorem C94_edge : forall N, value (optimum_poly N) 0 = 0%R /\ (N <> O -> value (optimum_poly N) 1 = 1%R).
Proof. exact C94_edge_lem. Qed.
Print Assumptions C94_edge.
Theorem C94_monotone : forall N w w', (0 <= w)%R -> (w <= w')%R -> (value (optimum_poly N) w <= value (optimum_poly N) w')%R.
Proof. exact LegProofs3.opt_mono. Qed.
Print Assumptions C94_monotone.
(** 2N + 1 coefficients, the first not 0, those of odd powers 0 *)
Theorem C94_shape : forall N, length (optimum_poly N) = (2 * N + 1)%nat /\ (N <> O -> head (optimum_poly N) <> Some 0%Z) /\
  forall i, Nat.odd i = true -> nth i (rev (optimum_poly N)) 0%Z = 0%Z.
Proof. exact C94_shape_lem. Qed.
Print Assumptions C94_shape.
(** the docstring's example *)
Example C94_shape_ex : optimum_poly 5 = [20; 0; -40; 0; 28; 0; -8; 0; 1; 0; 0]%Z.
Proof. vm_compute. reflexivity. Qed.

(** if _roots finds the roots: the response, half the power at the cutoff, monotone *)
Theorem C94_response : forall roots N, finds_roots roots N -> let h := legendreap roots N in
  (forall w, response h w = / (1 + value (optimum_poly N) w))%R /\ (N <> O -> response h 1 = / 2)%R /\
  (forall w w', 0 <= w -> w <= w' -> response h w' <= response h w)%R.
Proof. exact C94_response_lem. Qed.
Print Assumptions C94_response.
(** the poles: in the left half plane, with their conjugates, N of them; gain 1 at zero frequency *)
Theorem C94_poles : forall roots N, finds_roots roots N -> let h := legendreap roots N in good h /\ t_z h = [] /\ length (t_p h) = N /\ transfer h 0%F = 1%F.
Proof. exact C94_poles_lem. Qed.
Print Assumptions C94_poles.
Example C94_response_ex : exists roots, finds_roots roots 2.
Proof. exact (ex_intro (fun roots => finds_roots roots 2) (fun _ => roots2) finds2). Qed.
