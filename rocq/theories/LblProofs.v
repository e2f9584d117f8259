(** Proofs behind LblProps.v. *)
From Coq Require Import ZArith QArith Qround Qabs Lia Lqa Bool.
From Verif Require Import Py LblModel LblSpec.

Lemma gtb_true x y : gtb x y = true <-> y < x.
Proof.
  unfold gtb. rewrite negb_true_iff. split; intros H.
  - apply Qnot_le_lt. intros H'. apply Qle_bool_iff in H'. congruence.
  - destruct (Qle_bool x y) eqn:E; [|reflexivity]. apply Qle_bool_iff in E. lra.
Qed.
Lemma gtb_false x y : gtb x y = false <-> x <= y.
Proof. unfold gtb. rewrite negb_false_iff. apply Qle_bool_iff. Qed.
Lemma gtb_spec x y : reflect (y < x) (gtb x y).
Proof. apply iff_reflect. symmetry. apply gtb_true. Qed.
Lemma floor_bounds x : inject_Z (Qfloor x) <= x < inject_Z (Qfloor x) + 1.
Proof. split; [apply Qfloor_le|]. pose proof (Qlt_floor x) as H. rewrite inject_Z_plus in H. exact H. Qed.
Lemma round_near x : -(1 # 2) <= inject_Z (round_even x) - x <= 1 # 2.
Proof.
  unfold round_even. pose proof (floor_bounds x) as [H1 H2]. cbv zeta.
  destruct (gtb_spec (1 # 2) (x - inject_Z (Qfloor x))); [lra|].
  destruct (gtb_spec (x - inject_Z (Qfloor x)) (1 # 2)); [rewrite inject_Z_plus; change (inject_Z 1) with 1; lra|].
  destruct (Z.even (Qfloor x)); [lra|rewrite inject_Z_plus; change (inject_Z 1) with 1; lra].
Qed.
(** the only integer as near, or the even one of two *)
Lemma round_only x m : -(1 # 2) <= inject_Z m - x <= 1 # 2 -> (-(1 # 2) < inject_Z m - x < 1 # 2 \/ Z.even m = true) -> round_even x = m.
Proof.
  intros Hm Hs. unfold round_even. pose proof (floor_bounds x) as [H1 H2]. cbv zeta. set (f := Qfloor x) in *.
  assert (f <= m + 1)%Z as Ha. { assert (inject_Z f < inject_Z (m + 1)) as H by (rewrite inject_Z_plus; change (inject_Z 1) with 1; lra). rewrite <- Zlt_Qlt in H. lia. }
  assert (f = m \/ f = m - 1)%Z as [E|E].
  { assert (inject_Z f < inject_Z (m + 1)) as H by (rewrite inject_Z_plus; change (inject_Z 1) with 1; lra). rewrite <- Zlt_Qlt in H.
    assert (inject_Z (m - 2) < inject_Z f) as H' by (unfold Zminus; rewrite inject_Z_plus; change (inject_Z (- (2))) with (-(2)); lra). rewrite <- Zlt_Qlt in H'. lia. }
  - rewrite E in *. destruct (gtb_spec (1 # 2) (x - inject_Z m)); [reflexivity|]. destruct (gtb_spec (x - inject_Z m) (1 # 2)); [lra|].
    destruct Hs as [Hs|Hs]; [lra|]. rewrite Hs. reflexivity.
  - assert (inject_Z f == inject_Z m - 1) as Ef by (rewrite E; unfold Zminus; rewrite inject_Z_plus; reflexivity).
    destruct (gtb_spec (1 # 2) (x - inject_Z f)); [lra|]. destruct (gtb_spec (x - inject_Z f) (1 # 2)); [lia|].
    destruct Hs as [Hs|Hs]; [lra|]. assert (Z.even f = false) as ->; [|lia]. rewrite E. rewrite Z.even_sub, Hs. reflexivity.
Qed.
Lemma round_opp x : round_even (- x) = (- round_even x)%Z.
Proof.
  apply round_only; pose proof (round_near x) as [H1 H2]; rewrite inject_Z_opp; [lra|].
  assert (-(1 # 2) < inject_Z (round_even x) - x < 1 # 2 \/ Z.even (round_even x) = true) as [H|H]; [|left; lra|right; rewrite Z.even_opp; exact H].
  unfold round_even in *. pose proof (floor_bounds x) as [G1 G2]. cbv zeta in *.
  destruct (gtb_spec (1 # 2) (x - inject_Z (Qfloor x))); [left; lra|].
  destruct (gtb_spec (x - inject_Z (Qfloor x)) (1 # 2)); [left; rewrite inject_Z_plus; change (inject_Z 1) with 1; lra|].
  destruct (Z.even (Qfloor x)) eqn:E; [right; exact E|right]. rewrite Z.even_add, E. reflexivity.
Qed.
Lemma round_comp x y : x == y -> round_even x = round_even y.
Proof.
  intros E. apply round_only; pose proof (round_near y) as [H1 H2]; [lra|].
  unfold round_even in *. pose proof (floor_bounds y) as [G1 G2]. cbv zeta in *.
  destruct (gtb_spec (1 # 2) (y - inject_Z (Qfloor y))); [left; lra|].
  destruct (gtb_spec (y - inject_Z (Qfloor y)) (1 # 2)); [left; rewrite inject_Z_plus in *; change (inject_Z 1) with 1 in *; lra|].
  destruct (Z.even (Qfloor y)) eqn:E'; [right; exact E'|right]. rewrite Z.even_add, E'. reflexivity.
Qed.
(** the scale *)
Lemma scale_ok v c p div : 0 <= v -> scale v c = Ok (p, div) ->
  0 < div /\ (p <> Centi -> div = si p) /\ (p = Centi -> c = true /\ div = 100 /\ 1 # 100 < v <= 1) /\ ((v == 0 /\ p = Unity) \/ tiny < v /\ (p <> Centi -> div < v)) /\
  (p <> Centi -> p <> Kilo -> p <> Femto -> v <= 1000 * div) /\ (p = Femto -> v <= 1000000 * div).
Proof.
  intros Hv. unfold scale, tiny.
  assert (forall q x, Ok (q, x) = Ok (p, div) -> 0 < x -> (q <> Centi -> x = si q) -> (q = Centi -> c = true /\ x = 100 /\ 1 # 100 < v <= 1) ->
    ((v == 0 /\ q = Unity) \/ 1 # 1000000000000000000000 < v /\ (q <> Centi -> x < v)) ->
    (q <> Centi -> q <> Kilo -> q <> Femto -> v <= 1000 * x) -> (q = Femto -> v <= 1000000 * x) ->
    0 < div /\ (p <> Centi -> div = si p) /\ (p = Centi -> c = true /\ div = 100 /\ 1 # 100 < v <= 1) /\ ((v == 0 /\ p = Unity) \/ 1 # 1000000000000000000000 < v /\ (p <> Centi -> div < v)) /\
    (p <> Centi -> p <> Kilo -> p <> Femto -> v <= 1000 * div) /\ (p = Femto -> v <= 1000000 * div)) as K.
  { intros q x [= <- <-]. tauto. }
  Local Ltac fin := try (intros; first [reflexivity | discriminate | congruence | lra | (right; split; [lra|intros; first [lra | congruence]]) | (left; split; [assumption|reflexivity]) | (repeat split; first [reflexivity | lra])]).
  (destruct (gtb_spec v 1000); [intros E; apply (K _ _ E); fin|]).
  (destruct (gtb_spec v 1); [intros E; apply (K _ _ E); fin|]).
  destruct (gtb_spec v (1 # 100)), c; cbn [andb]; try (intros E; apply (K _ _ E); fin; fail);
  (destruct (gtb_spec v (1 # 1000)); [intros E; apply (K _ _ E); fin|]);
  (destruct (gtb_spec v (1 # 1000000)); [intros E; apply (K _ _ E); fin|]);
  (destruct (gtb_spec v (1 # 1000000000)); [intros E; apply (K _ _ E); fin|]);
  (destruct (gtb_spec v (1 # 1000000000000000)); [intros E; apply (K _ _ E); fin|]);
  (destruct (gtb_spec v (1 # 1000000000000000000)); [intros E; apply (K _ _ E); fin|]);
  (destruct (gtb_spec v (1 # 1000000000000000000000)); [intros E; apply (K _ _ E); fin|]);
  (destruct (Qeq_bool v 0) eqn:E0; [apply Qeq_bool_iff in E0; intros E; apply (K _ _ E); fin|discriminate]).
Qed.
Lemma scale_def v c : 0 <= v -> (exists r, scale v c = Ok r) <-> v == 0 \/ tiny < v.
Proof.
  intros Hv. split.
  - intros [[p div] E]. destruct (scale_ok v c p div Hv E) as (_ & _ & _ & [[H _]|[H _]] & _); tauto.
  - intros H. destruct (scale v c) as [r|e] eqn:E; [exists r; reflexivity|]. exfalso. revert E. unfold scale.
    assert (forall b : bool, forall x y : res (prefix * Q), x <> Err e -> y <> Err e -> (if b then x else y) = Err e -> False) as K by (intros []; auto).
    destruct H as [H|H].
    + apply Qeq_bool_iff in H. rewrite H. repeat (apply K; [discriminate|unfold not]). discriminate.
    + unfold tiny in H. apply gtb_true in H. rewrite H. repeat (apply K; [discriminate|unfold not]). discriminate.
Qed.
Lemma fewer_nonneg x d : (0 <= fewer x d)%Z.
Proof. unfold fewer. cbv zeta. destruct (_ <? 0)%Z eqn:E; [lia|]. apply Z.ltb_ge in E. exact E. Qed.
Lemma pow10_pos d : (0 <= d)%Z -> 1 <= inject_Z (10 ^ d).
Proof. intros H. change 1 with (inject_Z 1). rewrite <- Zle_Qle. pose proof (Z.pow_pos_nonneg 10 d). lia. Qed.
Lemma pow10_le a b : (0 <= b)%Z -> (a <= b)%Z -> inject_Z (10 ^ a) <= inject_Z (10 ^ b).
Proof. intros Hb H. rewrite <- Zle_Qle. destruct (Z.lt_ge_cases a 0); [rewrite Z.pow_neg_r by lia; apply Z.pow_nonneg; lia|]. apply Z.pow_le_mono_r; lia. Qed.
(** the decimals dropped are paid for by the size of the number *)
Lemma fewer_enough x d : 1 < Qabs x -> inject_Z (10 ^ d) <= inject_Z (10 ^ fewer x d) * Qabs x.
Proof.
  intros Hx. pose proof (pow10_pos _ (fewer_nonneg x d)) as HT. pose proof (fewer_nonneg x d) as HF. set (T := inject_Z (10 ^ fewer x d)) in *.
  assert (forall k, (0 <= k)%Z -> (d <= fewer x d + k)%Z -> inject_Z (10 ^ k) <= Qabs x -> inject_Z (10 ^ d) <= T * Qabs x) as K.
  { intros k Hk Hd Hq. apply Qle_trans with (T * inject_Z (10 ^ k)).
    - unfold T. rewrite <- inject_Z_mult, <- Z.pow_add_r by lia. apply pow10_le; lia.
    - rewrite (Qmult_comm T), (Qmult_comm T). apply Qmult_le_compat_r; [exact Hq|lra]. }
  clear HT HF. clearbody T. revert K. unfold fewer. cbv zeta.
  destruct (gtb_spec x 100) as [G|G]; [|destruct (gtb_spec x 10) as [G'|G']]; intros K.
  - apply (K 2%Z); [lia| |change (inject_Z (10 ^ 2)) with 100; pose proof (Qle_Qabs x); lra]. destruct (_ <? 0)%Z eqn:E; [apply Z.ltb_lt in E|]; lia.
  - apply (K 1%Z); [lia| |change (inject_Z (10 ^ 1)) with 10; pose proof (Qle_Qabs x); lra]. destruct (_ <? 0)%Z eqn:E; [apply Z.ltb_lt in E|]; lia.
  - apply (K 0%Z); [lia| |change (inject_Z (10 ^ 0)) with 1; lra]. destruct (_ <? 0)%Z eqn:E; [apply Z.ltb_lt in E|]; lia.
Qed.
