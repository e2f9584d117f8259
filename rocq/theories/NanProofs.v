(** Proofs of the theorems of NanProps.v. *)
From Coq Require Import List Arith Lia.
From Verif Require Import Py NanModel NanSpec.
Import ListNotations.

Lemma search_spec fuel arr k : length arr <= fuel + 2 ^ k ->
  (search (S fuel) arr (length arr) (2 ^ k) = Ok (length arr) /\ (forall m, k <= m -> 2 ^ m < length arr -> nth_error arr (2 ^ m) = Some true)) \/
  (exists m, k <= m /\ 2 ^ m < length arr /\ nth_error arr (2 ^ m) = Some false /\
     search (S fuel) arr (length arr) (2 ^ k) = if Nat.eqb m 0 then Ok 1 else Err IndexError).
Proof.
  revert k. induction fuel as [|fuel IH]; intros k Hf; cbn [search]; rewrite Nat.add_0_l; destruct (Nat.ltb_spec (2 ^ k) (length arr)) as [H|H]; try lia.
  - left. split; [reflexivity|]. intros m Hm Hl. pose proof (Nat.pow_le_mono_r 2 k m). lia.
  - destruct (nth_error arr (2 ^ k)) as [[|]|] eqn:E.
    + replace (2 ^ k * 2) with (2 ^ S k) by (cbn [Nat.pow]; lia). assert (length arr <= fuel + 2 ^ S k) as Hf' by (pose proof (Nat.pow_nonzero 2 k); cbn [Nat.pow]; lia).
      destruct (IH (S k) Hf') as [[E1 H1]|(m & Hm & Hl & Hn & E1)].
      * left. split; [exact E1|]. intros m Hm Hl. destruct (Nat.eq_dec k m) as [<-|]; [exact E|]. apply H1; [lia|exact Hl].
      * right. exists m. split; [lia|]. auto.
    + right. exists k. repeat split; try assumption; [lia|]. destruct k as [|k]; [reflexivity|].
      replace (Nat.eqb (2 ^ S k) 1) with false; [reflexivity|]. symmetry. apply Nat.eqb_neq. pose proof (Nat.pow_nonzero 2 k). cbn [Nat.pow]. lia.
    + apply nth_error_None in E. lia.
  - left. split; [reflexivity|]. intros m Hm Hl. pose proof (Nat.pow_le_mono_r 2 k m). lia.
Qed.
Lemma run arr : nth_error arr 0 = Some true ->
  (first_non_NaN arr = Ok (length arr) /\ (forall m, 2 ^ m < length arr -> nth_error arr (2 ^ m) = Some true)) \/
  (exists m, 2 ^ m < length arr /\ nth_error arr (2 ^ m) = Some false /\ first_non_NaN arr = if Nat.eqb m 0 then Ok 1 else Err IndexError).
Proof.
  intros H. destruct arr as [|[] arr]; try discriminate. unfold first_non_NaN. destruct (search_spec (length (true :: arr)) (true :: arr) 0) as [[E1 H1]|(m & _ & H2)]; [lia| |].
  - left. split; [exact E1|]. intros m. apply H1. lia.
  - right. exists m. exact H2.
Qed.
Lemma C101_found_lem arr i : first_non_NaN arr = Ok i -> i < length arr -> i <= 1 /\ first_at arr i.
Proof.
  intros H Hi. destruct (nth_error arr 0) as [[|]|] eqn:E0.
  - destruct (run arr E0) as [[E _]|(m & Hl & Hn & E)]; rewrite E in H; [injection H as <-; lia|]. destruct m as [|m]; [|discriminate]. cbn [Nat.eqb] in H. injection H as <-. change (2 ^ 0) with 1 in *.
    split; [lia|]. split; [lia|]. split; [|intros _; exact Hn]. intros j Hj. replace j with 0 by lia. exact E0.
  - destruct arr as [|[] arr]; try discriminate. injection H as <-. split; [lia|]. split; [lia|]. split; [intros j Hj; lia|]. reflexivity.
  - destruct arr; discriminate.
Qed.
Lemma C101_short_lem arr i : i <= 1 -> i < length arr -> first_at arr i -> first_non_NaN arr = Ok i.
Proof.
  intros Hi Hl (_ & H1 & H2). specialize (H2 Hl). destruct i as [|i].
  - destruct arr as [|[] arr]; [simpl in Hl; lia|discriminate|reflexivity].
  - replace i with 0 in * by lia. pose proof (H1 0 ltac:(lia)) as E0. destruct arr as [|[] [|[] arr]]; try discriminate; reflexivity.
Qed.
Lemma C101_none_lem arr : arr <> [] -> (forall j, j < length arr -> nth_error arr j = Some true) -> first_non_NaN arr = Ok (length arr).
Proof.
  intros Hne H. assert (nth_error arr 0 = Some true) as E0 by (apply H; destruct arr; [congruence|simpl; lia]).
  destruct (run arr E0) as [[E _]|(m & Hl & Hn & _)]; [exact E|]. rewrite (H _ Hl) in Hn. discriminate.
Qed.
Lemma C101_late_lem arr i : 1 < i -> i < length arr -> first_at arr i ->
  first_non_NaN arr = Err IndexError /\ (exists m, 2 ^ m < length arr /\ nth_error arr (2 ^ m) = Some false) \/
  first_non_NaN arr = Ok (length arr) /\ forall m, 2 ^ m < length arr -> nth_error arr (2 ^ m) = Some true.
Proof.
  intros Hi Hl (_ & H1 & _). destruct (run arr (H1 0 ltac:(lia))) as [H|(m & Hm & Hn & E)]; [right; exact H|left].
  split; [|exists m; auto]. destruct m as [|m]; [|exact E]. change (2 ^ 0) with 1 in Hn. rewrite (H1 1 Hi) in Hn. discriminate.
Qed.
Lemma C101_late_refuted_lem : exists arr arr' i i', first_at arr i /\ i < length arr /\ first_non_NaN arr = Ok (length arr) /\
  first_at arr' i' /\ i' < length arr' /\ first_non_NaN arr' = Err IndexError.
Proof.
  exists [true; true; true; false], [true; true; false], 3, 2.
  assert (first_at [true; true; true; false] 3) as F1. { split; [simpl; lia|]. split; [|reflexivity]. intros [|[|[|j]]] Hj; try reflexivity; lia. }
  assert (first_at [true; true; false] 2) as F2. { split; [simpl; lia|]. split; [|reflexivity]. intros [|[|j]] Hj; try reflexivity; lia. }
  repeat split; try apply F1; try apply F2; simpl; lia.
Qed.
Lemma C101_example_lem : exists arr arr' i, first_non_NaN arr = Ok i /\ 0 < i < length arr /\ arr' <> [] /\ forall j, j < length arr' -> nth_error arr' j = Some true.
Proof. exists [true; false; true], [true; true], 1. repeat split; try (simpl; lia); [discriminate|]. intros [|[|j]] Hj; simpl in *; try reflexivity; lia. Qed.
