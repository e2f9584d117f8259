(** Proofs of the theorems of SolProps.v. *)
From stdpp Require Import base tactics list numbers gmap fin_sets.
From Verif Require Import Py SolModel SolSpec SolProofs.
Local Open Scope Z_scope.

Section props.
  Context {S T C R D : Type} `{Countable R} `{Countable D}.
  Context (init : S) (step : S -> S) (conv : S -> bool) (full : R -> S -> T) (couple : D -> R -> S -> C).
  Context (max_N : Z) (exact_order : option Z).
  Notation run := (run step conv full couple max_N exact_order).
  Notation solve := (solve step conv max_N exact_order).
  Notation pget := (pget step conv max_N exact_order).
  Notation dget := (dget step conv full max_N exact_order).
  Notation cget := (cget step conv couple max_N exact_order).

  (** order N, whatever was asked for before, is the N-fold iteration of the initial solution;
      a negative order counts back from the last one *)
  Lemma C36_order_lem fuel os s N s' v : run fuel os (st0 init) = Ok s -> pget fuel s (Some N) = Ok (s', v) ->
    (0 <= N -> v = solution step init (Z.to_nat N)) /\
    (- count s <= N < 0 -> v = solution step init (Z.to_nat (count s + N)) /\ count s' = count s).
  Proof.
    intros Hr Hp. pose proof (reach_inv _ _ _ _ _ _ _ _ _ _ Hr) as Hs.
    destruct (pget_ok _ _ _ full couple _ _ _ _ _ _ _ Hs Hp) as (_ & _ & _ & Q1 & Q2). split; [naive_solver|].
    intros HN. destruct (Q2 (Z.to_nat (count s + N))) as (Q3 & Q4 & _); unfold count, len in *; [lia|right; left; lia|done].
  Qed.
  (** no order given: the last one *)
  Lemma C36_last_lem fuel os s s' v : run fuel os (st0 init) = Ok s -> pget fuel s None = Ok (s', v) ->
    v = solution step init (Z.to_nat (count s' - 1)).
  Proof.
    intros Hr Hp. pose proof (reach_inv _ _ _ _ _ _ _ _ _ _ Hr) as Hs.
    by destruct (pget_ok _ _ _ full couple _ _ _ _ _ _ _ Hs Hp) as (_ & _ & _ & Q).
  Qed.
  (** the order-N solution at a readout set is evaluated on the solution of order N - 1 *)
  Lemma C36_driven_lem fuel os s r N s' t : run fuel os (st0 init) = Ok s -> dget fuel s r (Some N) = Ok (s', t) ->
    (1 <= N -> t = full r (solution step init (Z.to_nat (N - 1)))) /\
    (N < 0 -> 1 <= count s + N -> t = full r (solution step init (Z.to_nat (count s + N - 1)))).
  Proof.
    intros Hr Hp. pose proof (reach_inv _ _ _ _ _ _ _ _ _ _ Hr) as Hs.
    by destruct (dget_ok _ _ _ full couple _ _ _ _ _ _ _ _ Hs Hp) as (_ & _ & _ & Q).
  Qed.
  (** and so is the coupling matrix of order N *)
  Lemma C36_coupling_lem fuel os s d r N s' c : run fuel os (st0 init) = Ok s -> cget fuel s d r (Some N) = Ok (s', c) ->
    (1 <= N -> c = couple d r (solution step init (Z.to_nat (N - 1)))) /\
    (N <= 0 -> 1 <= count s + N -> c = couple d r (solution step init (Z.to_nat (count s + N - 1)))).
  Proof.
    intros Hr Hp. pose proof (reach_inv _ _ _ _ _ _ _ _ _ _ Hr) as Hs.
    by destruct (cget_ok _ _ _ full couple _ _ _ _ _ _ _ _ _ Hs Hp) as (_ & _ & _ & Q).
  Qed.
  Lemma C36_driven_last_lem fuel os s r s' t : run fuel os (st0 init) = Ok s -> dget fuel s r None = Ok (s', t) ->
    2 <= count s' -> t = full r (solution step init (Z.to_nat (count s' - 2))).
  Proof.
    intros Hr Hp. pose proof (reach_inv _ _ _ _ _ _ _ _ _ _ Hr) as Hs.
    by destruct (dget_ok _ _ _ full couple _ _ _ _ _ _ _ _ Hs Hp) as (_ & _ & _ & Q).
  Qed.
  Lemma C36_coupling_last_lem fuel os s d r s' c : run fuel os (st0 init) = Ok s -> cget fuel s d r None = Ok (s', c) ->
    2 <= count s' -> c = couple d r (solution step init (Z.to_nat (count s' - 2))).
  Proof.
    intros Hr Hp. pose proof (reach_inv _ _ _ _ _ _ _ _ _ _ Hr) as Hs.
    by destruct (cget_ok _ _ _ full couple _ _ _ _ _ _ _ _ _ Hs Hp) as (_ & _ & _ & Q).
  Qed.
  (** no solution, readout or coupling matrix is computed twice, and none is dropped or replaced *)
  Lemma C36_once_lem fuel os s : run fuel os (st0 init) = Ok s -> NoDup (log s).
  Proof. intros Hr. apply (reach_inv _ _ _ _ _ _ _ _ _ _ Hr). Qed.
  Lemma C36_kept_lem fuel os os' s s' : run fuel os (st0 init) = Ok s -> run fuel os' s = Ok s' -> keeps s s' /\ count s <= count s'.
  Proof.
    intros Hr Hr'. pose proof (reach_inv _ _ _ _ _ _ _ _ _ _ Hr) as Hs.
    by destruct (run_ok _ _ _ _ _ _ _ _ _ _ _ Hs Hr') as (_ & Q).
  Qed.
  (** solving up to order N leaves orders 0..N, or as many as there were *)
  Lemma C36_count_lem fuel os s N s' : exact_order = None -> run fuel os (st0 init) = Ok s -> solve fuel s (Some N) = Ok s' ->
    count s' = Z.max (count s) (N + 1).
  Proof.
    intros He Hr Hp. pose proof (reach_inv _ _ _ _ _ _ _ _ _ _ Hr) as Hs.
    destruct (solve_ok _ _ _ full couple _ _ _ _ _ _ Hs Hp) as (_ & _ & _ & Q). by rewrite He in Q.
  Qed.
  (** without an order: up to max_N, or less if the last one has converged *)
  Lemma C36_count_default_lem fuel os s s' : exact_order = None -> run fuel os (st0 init) = Ok s -> solve fuel s None = Ok s' ->
    count s <= count s' <= Z.max (count s) (max_N + 1) /\
    (count s' < Z.max (count s) (max_N + 1) -> conv (solution step init (Z.to_nat (count s' - 1))) = true).
  Proof.
    intros He Hr Hp. pose proof (reach_inv _ _ _ _ _ _ _ _ _ _ Hr) as Hs.
    destruct (solve_ok _ _ _ full couple _ _ _ _ _ _ Hs Hp) as (Hs' & _ & Q0 & Q). rewrite He in Q.
    destruct Q as [Q1 Q2]. split; [done|]. intros Hlt. destruct (Q2 Hlt) as (e & v & E1 & E2 & Hc).
    by rewrite (i_p _ _ _ _ _ Hs' _ _ _ E1 E2) in Hc.
  Qed.
  (** solving again changes nothing *)
  Lemma C36_again_lem fuel (s : st (S := S) (T := T) (C := C) (R := R) (D := D)) N : exact_order = None -> N < count s -> solve (Datatypes.S fuel) s (Some N) = Ok s.
  Proof.
    intros He Hl. unfold SolModel.solve, solve_with. destruct exact_order; [done|]. cbn [sloop].
    unfold count, len in *. rewrite decide_False by lia. simpl. by rewrite decide_False by lia.
  Qed.
  (** every program asking for orders from -1 up gets its answers *)
  Lemma C36_defined_lem os : exact_order = None -> Forall op_ok os ->
    exists c, forall fuel, (c <= fuel)%nat -> exists s, run fuel os (st0 init) = Ok s.
  Proof. intros He Hos. by apply run_some. Qed.
End props.

Lemma ok_match {A} (r : res A) (P : A -> Prop) : match r with Ok a => P a | Err _ => False end -> exists a, r = Ok a /\ P a.
Proof. destruct r; [eauto|done]. Qed.
Lemma ok_match2 {A B} (r : res (A * B)) (P : A -> B -> Prop) : match r with Ok (a, b) => P a b | Err _ => False end -> exists a b, r = Ok (a, b) /\ P a b.
Proof. destruct r as [[a b]|]; [eauto|done]. Qed.

Section example.
  Local Notation xrun := (run (S := nat) (T := nat * nat) (C := nat * nat * nat) (R := nat) (D := nat) Datatypes.S (fun _ => false) pair (fun d r s => (d, r, s))).
  Local Notation xst := (st (S := nat) (T := nat * nat) (C := nat * nat * nat) (R := nat) (D := nat)).
  Lemma C36_example_lem : exists s s' v, xrun 3 None 9 [Solve (Some 2); Driven 7%nat (Some 4); Coupling 1%nat 2%nat (Some (-1))] (st0 0%nat) = Ok s /\
    count s = 5 /\ length (log s) = 6%nat /\
    dget Datatypes.S (fun _ => false) pair 3 None 9 s 7%nat (Some 3) = Ok (s', v) /\ v = (7, 2)%nat.
  Proof.
    edestruct (ok_match (xrun 3 None 9 [Solve (Some 2); Driven 7%nat (Some 4); Coupling 1%nat 2%nat (Some (-1))] (st0 0%nat))
      (fun s => count s = 5 /\ length (log s) = 6%nat /\
        match dget Datatypes.S (fun _ => false) pair 3 None 9 s 7%nat (Some 3) with Ok (_, v) => v = (7, 2)%nat | Err _ => False end)) as (s & E & P1 & P2 & P3).
    { vm_compute. done. }
    apply (ok_match2 _ (fun _ v => v = (7, 2)%nat)) in P3 as (s' & v & P3 & P4). exists s, s', v. done.
  Qed.
  Lemma C36_defined_example_lem : Forall op_ok [Solve (Some 2); Driven (D := nat) 7%nat (Some 4); Coupling 1%nat 2%nat (Some (-1)); Pert None].
  Proof. repeat constructor; done. Qed.

  (** ** where the bookkeeping is not what one would expect *)
  (** solving up to order 1 does not leave two solutions if more were there *)
  Lemma C36_exactly_refuted_lem : exists (s s' : xst), xrun 3 None 9 [Solve (Some 3)] (st0 0%nat) = Ok s /\
    solve Datatypes.S (fun _ => false) 3 None 9 s (Some 1) = Ok s' /\ count s' <> 2.
  Proof.
    edestruct (ok_match (xrun 3 None 9 [Solve (Some 3)] (st0 0%nat))
      (fun s => match solve Datatypes.S (fun _ => false) 3 None 9 s (Some 1) with Ok s' => count s' = 4 | Err _ => False end)) as (s & E & P1).
    { vm_compute. done. }
    apply (ok_match _ (fun s' => count s' = 4)) in P1 as (s' & P1 & P2). exists s, s'. rewrite P2. done.
  Qed.
  (** with exact_order every solve appends an entry, and later orders cannot be looked up *)
  Lemma C36_exact_order_refuted_lem : exists (s s' : xst), xrun 3 (Some 2) 9 [Solve None] (st0 0%nat) = Ok s /\
    xrun 3 (Some 2) 9 [Solve None] s = Ok s' /\ count s = 4 /\ count s' = 5 /\
    pget Datatypes.S (fun _ => false) 3 (Some 2) 9 s' (Some 6) = Err IndexError.
  Proof.
    edestruct (ok_match (xrun 3 (Some 2) 9 [Solve None] (st0 0%nat))
      (fun s => count s = 4 /\ match xrun 3 (Some 2) 9 [Solve None] s with
        | Ok s' => count s' = 5 /\ match pget Datatypes.S (fun _ => false) 3 (Some 2) 9 s' (Some 6) with Err IndexError => True | _ => False end
        | Err _ => False end)) as (s & E & P1 & P2).
    { vm_compute. done. }
    apply (ok_match _ (fun s' => count s' = 5 /\ match pget Datatypes.S (fun _ => false) 3 (Some 2) 9 s' (Some 6) with Err IndexError => True | _ => False end)) in P2 as (s' & P2 & P3 & P4).
    exists s, s'. split_and!; try done. destruct (pget _ _ _ _ _ _ _) as [|[]]; done.
  Qed.
  (** the readouts of order 0 depend on what was solved before *)
  Lemma C36_driven_0_refuted_lem : exists (s s1 s2 : xst), xrun 3 None 9 [Solve (Some 2)] (st0 0%nat) = Ok s /\
    dget Datatypes.S (fun _ => false) pair 3 None 9 (st0 0%nat) 7%nat (Some 0) = Ok (s1, (7, 0)%nat) /\
    dget Datatypes.S (fun _ => false) pair 3 None 9 s 7%nat (Some 0) = Ok (s2, (7, 2)%nat).
  Proof.
    edestruct (ok_match (xrun 3 None 9 [Solve (Some 2)] (st0 0%nat))
      (fun s => match dget Datatypes.S (fun _ => false) pair 3 None 9 s 7%nat (Some 0) with Ok (_, v) => v = (7, 2)%nat | Err _ => False end)) as (s & E & P1).
    { vm_compute. done. }
    edestruct (ok_match2 (dget Datatypes.S (fun _ => false) pair 3 None 9 (st0 (C := nat * nat * nat) (D := nat) 0%nat) 7%nat (Some 0)) (fun _ v => v = (7, 0)%nat)) as (s1 & v & E1 & ->).
    { vm_compute. done. }
    apply (ok_match2 _ (fun _ v => v = (7, 2)%nat)) in P1 as (s2 & v2 & P1 & ->). exists s, s1, s2. done.
  Qed.
  (** an order before the first is answered with a later one rather than refused *)
  Lemma C36_before_first_refuted_lem : exists (s s' : xst), xrun 3 None 9 [Solve (Some 2)] (st0 0%nat) = Ok s /\ count s = 3 /\
    pget Datatypes.S (fun _ => false) 3 None 9 s (Some (-4)) = Ok (s', 2%nat).
  Proof.
    edestruct (ok_match (xrun 3 None 9 [Solve (Some 2)] (st0 0%nat))
      (fun s => count s = 3 /\ match pget Datatypes.S (fun _ => false) 3 None 9 s (Some (-4)) with Ok (_, v) => v = 2%nat | Err _ => False end)) as (s & E & P0 & P1).
    { vm_compute. done. }
    apply (ok_match2 _ (fun _ v => v = 2%nat)) in P1 as (s2 & v2 & P1 & ->). exists s, s2. done.
  Qed.
  (** the coupling matrix asked for at order -count is kept for later, different, requests *)
  Lemma C36_stale_coupling_refuted_lem : exists (s1 s2 s s' : xst),
    xrun 3 None 9 [Coupling 1%nat 2%nat (Some (-1)); Solve (Some 2)] (st0 0%nat) = Ok s1 /\
    xrun 3 None 9 [Solve (Some 2)] (st0 0%nat) = Ok s2 /\
    cget Datatypes.S (fun _ => false) (fun d r s => (d, r, s)) 3 None 9 s1 1%nat 2%nat (Some (-3)) = Ok (s, (1, 2, 0)%nat) /\
    cget Datatypes.S (fun _ => false) (fun d r s => (d, r, s)) 3 None 9 s2 1%nat 2%nat (Some (-3)) = Ok (s', (1, 2, 2)%nat).
  Proof.
    edestruct (ok_match (xrun 3 None 9 [Coupling 1%nat 2%nat (Some (-1)); Solve (Some 2)] (st0 0%nat))
      (fun s => match cget Datatypes.S (fun _ => false) (fun d r s => (d, r, s)) 3 None 9 s 1%nat 2%nat (Some (-3)) with Ok (_, v) => v = (1, 2, 0)%nat | Err _ => False end)) as (s1 & E1 & P1).
    { vm_compute. done. }
    edestruct (ok_match (xrun 3 None 9 [Solve (Some 2)] (st0 0%nat))
      (fun s => match cget Datatypes.S (fun _ => false) (fun d r s => (d, r, s)) 3 None 9 s 1%nat 2%nat (Some (-3)) with Ok (_, v) => v = (1, 2, 2)%nat | Err _ => False end)) as (s2 & E2 & P2).
    { vm_compute. done. }
    apply (ok_match2 _ (fun _ v => v = (1, 2, 0)%nat)) in P1 as (s & v & P1 & ->).
    apply (ok_match2 _ (fun _ v => v = (1, 2, 2)%nat)) in P2 as (s' & v & P2 & ->).
    exists s1, s2, s, s'. done.
  Qed.
End example.
