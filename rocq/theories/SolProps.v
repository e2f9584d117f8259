(** C36: the solver's numbered solutions.  See SolSpec.v for [solution], [count], [keeps]. *)
From stdpp Require Import base tactics list numbers gmap fin_sets.
From Verif Require Import Py SolModel SolSpec SolProofs SolFinal.
Local Open Scope Z_scope.

Section props.
  Context {S T C R D : Type} `{Countable R} `{Countable D}.
  Context (init : S) (step : S -> S) (conv : S -> bool) (full : R -> S -> T) (couple : D -> R -> S -> C).
  Context (max_N : Z) (exact_order : option Z).
  Notation run := (run step conv full couple max_N exact_order).
  Notation solve := (solve step conv max_N exact_order).
  Notation pget := (pget step conv max_N exact_order).
  Notation dget := (dget step conv full max_N exact_order).
  Notation cget := (cget step conv couple max_N exact_order).

  (** order N, whatever was asked for before, is the N-fold iteration of the initial solution;
      a negative order counts back from the last one *)
  Theorem C36_order fuel os s N s' v : run fuel os (st0 init) = Ok s -> pget fuel s (Some N) = Ok (s', v) ->
    (0 <= N -> v = solution step init (Z.to_nat N)) /\
    (- count s <= N < 0 -> v = solution step init (Z.to_nat (count s + N)) /\ count s' = count s).
  Proof. eapply C36_order_lem. Qed.
  (** no order given: the last one *)
  Theorem C36_last fuel os s s' v : run fuel os (st0 init) = Ok s -> pget fuel s None = Ok (s', v) ->
    v = solution step init (Z.to_nat (count s' - 1)).
  Proof. eapply C36_last_lem. Qed.
  (** the order-N solution at a readout set is evaluated on the solution of order N - 1 *)
  Theorem C36_driven fuel os s r N s' t : run fuel os (st0 init) = Ok s -> dget fuel s r (Some N) = Ok (s', t) ->
    (1 <= N -> t = full r (solution step init (Z.to_nat (N - 1)))) /\
    (N < 0 -> 1 <= count s + N -> t = full r (solution step init (Z.to_nat (count s + N - 1)))).
  Proof. eapply C36_driven_lem. Qed.
  (** and so is the coupling matrix of order N *)
  Theorem C36_coupling fuel os s d r N s' c : run fuel os (st0 init) = Ok s -> cget fuel s d r (Some N) = Ok (s', c) ->
    (1 <= N -> c = couple d r (solution step init (Z.to_nat (N - 1)))) /\
    (N <= 0 -> 1 <= count s + N -> c = couple d r (solution step init (Z.to_nat (count s + N - 1)))).
  Proof. eapply C36_coupling_lem. Qed.
  Theorem C36_driven_last fuel os s r s' t : run fuel os (st0 init) = Ok s -> dget fuel s r None = Ok (s', t) ->
    2 <= count s' -> t = full r (solution step init (Z.to_nat (count s' - 2))).
  Proof. eapply C36_driven_last_lem. Qed.
  Theorem C36_coupling_last fuel os s d r s' c : run fuel os (st0 init) = Ok s -> cget fuel s d r None = Ok (s', c) ->
    2 <= count s' -> c = couple d r (solution step init (Z.to_nat (count s' - 2))).
  Proof. eapply C36_coupling_last_lem. Qed.
  (** no solution, readout or coupling matrix is computed twice, and none is dropped or replaced *)
  Theorem C36_once fuel os s : run fuel os (st0 init) = Ok s -> NoDup (log s).
  Proof. eapply C36_once_lem. Qed.
  Theorem C36_kept fuel os os' s s' : run fuel os (st0 init) = Ok s -> run fuel os' s = Ok s' -> keeps s s' /\ count s <= count s'.
  Proof. eapply C36_kept_lem. Qed.
  (** solving up to order N leaves orders 0..N, or as many as there were *)
  Theorem C36_count fuel os s N s' : exact_order = None -> run fuel os (st0 init) = Ok s -> solve fuel s (Some N) = Ok s' ->
    count s' = Z.max (count s) (N + 1).
  Proof. eapply C36_count_lem. Qed.
  (** without an order: up to max_N, or less if the last one has converged *)
  Theorem C36_count_default fuel os s s' : exact_order = None -> run fuel os (st0 init) = Ok s -> solve fuel s None = Ok s' ->
    count s <= count s' <= Z.max (count s) (max_N + 1) /\
    (count s' < Z.max (count s) (max_N + 1) -> conv (solution step init (Z.to_nat (count s' - 1))) = true).
  Proof. eapply C36_count_default_lem. Qed.
  (** solving again changes nothing *)
  Theorem C36_again fuel (s : st (S := S) (T := T) (C := C) (R := R) (D := D)) N : exact_order = None -> N < count s -> solve (Datatypes.S fuel) s (Some N) = Ok s.
  Proof. eapply C36_again_lem. Qed.
  (** every program asking for orders from -1 up gets its answers *)
  Theorem C36_defined os : exact_order = None -> Forall op_ok os ->
    exists c, forall fuel, (c <= fuel)%nat -> exists s, run fuel os (st0 init) = Ok s.
  Proof. eapply C36_defined_lem. Qed.
End props.

Section example.
  Local Notation xrun := (run (S := nat) (T := nat * nat) (C := nat * nat * nat) (R := nat) (D := nat) Datatypes.S (fun _ => false) pair (fun d r s => (d, r, s))).
  Local Notation xst := (st (S := nat) (T := nat * nat) (C := nat * nat * nat) (R := nat) (D := nat)).
  Example C36_example : exists s s' v, xrun 3 None 9 [Solve (Some 2); Driven 7%nat (Some 4); Coupling 1%nat 2%nat (Some (-1))] (st0 0%nat) = Ok s /\
    count s = 5 /\ length (log s) = 6%nat /\
    dget Datatypes.S (fun _ => false) pair 3 None 9 s 7%nat (Some 3) = Ok (s', v) /\ v = (7, 2)%nat.
  Proof. eapply C36_example_lem. Qed.
  Example C36_defined_example : Forall op_ok [Solve (Some 2); Driven (D := nat) 7%nat (Some 4); Coupling 1%nat 2%nat (Some (-1)); Pert None].
  Proof. eapply C36_defined_example_lem. Qed.

  (** ** where the bookkeeping is not what one would expect *)
  (** solving up to order 1 does not leave two solutions if more were there *)
  Theorem C36_exactly_refuted : exists (s s' : xst), xrun 3 None 9 [Solve (Some 3)] (st0 0%nat) = Ok s /\
    solve Datatypes.S (fun _ => false) 3 None 9 s (Some 1) = Ok s' /\ count s' <> 2.
  Proof. eapply C36_exactly_refuted_lem. Qed.
  (** with exact_order every solve appends an entry, and later orders cannot be looked up *)
  Theorem C36_exact_order_refuted : exists (s s' : xst), xrun 3 (Some 2) 9 [Solve None] (st0 0%nat) = Ok s /\
    xrun 3 (Some 2) 9 [Solve None] s = Ok s' /\ count s = 4 /\ count s' = 5 /\
    pget Datatypes.S (fun _ => false) 3 (Some 2) 9 s' (Some 6) = Err IndexError.
  Proof. eapply C36_exact_order_refuted_lem. Qed.
  (** the readouts of order 0 depend on what was solved before *)
  Theorem C36_driven_0_refuted : exists (s s1 s2 : xst), xrun 3 None 9 [Solve (Some 2)] (st0 0%nat) = Ok s /\
    dget Datatypes.S (fun _ => false) pair 3 None 9 (st0 0%nat) 7%nat (Some 0) = Ok (s1, (7, 0)%nat) /\
    dget Datatypes.S (fun _ => false) pair 3 None 9 s 7%nat (Some 0) = Ok (s2, (7, 2)%nat).
  Proof. eapply C36_driven_0_refuted_lem. Qed.
  (** an order before the first is answered with a later one rather than refused *)
  Theorem C36_before_first_refuted : exists (s s' : xst), xrun 3 None 9 [Solve (Some 2)] (st0 0%nat) = Ok s /\ count s = 3 /\
    pget Datatypes.S (fun _ => false) 3 None 9 s (Some (-4)) = Ok (s', 2%nat).
  Proof. eapply C36_before_first_refuted_lem. Qed.
  (** the coupling matrix asked for at order -count is kept for later, different, requests *)
  Theorem C36_stale_coupling_refuted : exists (s1 s2 s s' : xst),
    xrun 3 None 9 [Coupling 1%nat 2%nat (Some (-1)); Solve (Some 2)] (st0 0%nat) = Ok s1 /\
    xrun 3 None 9 [Solve (Some 2)] (st0 0%nat) = Ok s2 /\
    cget Datatypes.S (fun _ => false) (fun d r s => (d, r, s)) 3 None 9 s1 1%nat 2%nat (Some (-3)) = Ok (s, (1, 2, 0)%nat) /\
    cget Datatypes.S (fun _ => false) (fun d r s => (d, r, s)) 3 None 9 s2 1%nat 2%nat (Some (-3)) = Ok (s', (1, 2, 2)%nat).
  Proof. eapply C36_stale_coupling_refuted_lem. Qed.
End example.

Print Assumptions C36_order.
Print Assumptions C36_last.
Print Assumptions C36_driven.
Print Assumptions C36_coupling.
Print Assumptions C36_driven_last.
Print Assumptions C36_coupling_last.
Print Assumptions C36_once.
Print Assumptions C36_kept.
Print Assumptions C36_count.
Print Assumptions C36_count_default.
Print Assumptions C36_again.
Print Assumptions C36_defined.
Print Assumptions C36_exactly_refuted.
Print Assumptions C36_exact_order_refuted.
Print Assumptions C36_driven_0_refuted.
Print Assumptions C36_before_first_refuted.
Print Assumptions C36_stale_coupling_refuted.
