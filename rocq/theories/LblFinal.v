(** Proofs of the theorems of LblProps.v. *)
From Coq Require Import ZArith QArith Qround Qabs Qfield Lia Lqa Bool.
From Verif Require Import Py LblModel LblSpec LblProofs.

Lemma parts val d c t : unit_str val d c = Ok t -> exists div, scale (Qabs val) c = Ok (pre t, div) /\ decimals t = fewer (val / div) d /\
  digits t = round_even (val / div * inject_Z (10 ^ decimals t)).
Proof. unfold unit_str. destruct (scale (Qabs val) c) as [[p div]|]; [|discriminate]. cbv zeta. intros [= <-]. exists div. repeat split. Qed.
Lemma err val d c t div : unit_str val d c = Ok t -> scale (Qabs val) c = Ok (pre t, div) -> 0 < div ->
  Qabs (number t - val / div) * inject_Z (10 ^ decimals t) <= 1 # 2.
Proof.
  intros H Hs Hd. destruct (parts _ _ _ _ H) as (div' & Hs' & Hdec & Hdig). rewrite Hs in Hs'. injection Hs' as <-.
  pose proof (fewer_nonneg (val / div) d) as Hn. rewrite <- Hdec in Hn. apply pow10_pos in Hn. unfold number. rewrite Hdig.
  set (T := inject_Z (10 ^ decimals t)) in *. set (n := val / div). pose proof (round_near (n * T)) as Hr. set (m := inject_Z (round_even (n * T))) in *.
  rewrite <- (Qabs_pos T) at 2 by lra. rewrite <- Qabs_Qmult. apply Qabs_Qle_condition.
  assert ((m / T - n) * T == m - n * T) as -> by (field; lra). exact Hr.
Qed.
Lemma scaled val div : 0 < div -> val == val / div * div.
Proof. intros H. field. lra. Qed.
Lemma abs_err e f : 0 <= f -> Qabs (e * f) == Qabs e * f.
Proof. intros H. rewrite Qabs_Qmult, (Qabs_pos f H). reflexivity. Qed.
Lemma C99_value_lem val d c t : unit_str val d c = Ok t -> pre t <> Centi -> Qabs (reads t - val) * (2 * inject_Z (10 ^ decimals t)) <= si (pre t).
Proof.
  intros H Hp. destruct (parts _ _ _ _ H) as (div & Hs & _). destruct (scale_ok _ _ _ _ (Qabs_nonneg val) Hs) as (Hd & Hf & _). specialize (Hf Hp).
  pose proof (err _ _ _ _ _ H Hs Hd) as He. unfold reads. rewrite <- Hf. set (T := inject_Z (10 ^ decimals t)) in *.
  assert (number t * div - val == (number t - val / div) * div) as -> by (field; lra).
  rewrite abs_err by lra. set (a := Qabs (number t - val / div)) in *.
  assert (a * div * (2 * T) == 2 * (a * T) * div) as -> by ring. rewrite <- (Qmult_1_l div) at 2. apply Qmult_le_compat_r; lra.
Qed.
Lemma C99_centi_lem val d c t : unit_str val d c = Ok t -> pre t = Centi ->
  c = true /\ (1 # 100) < Qabs val /\ Qabs val <= 1 /\ Qabs (reads t - val / 10000) * (2 * inject_Z (10 ^ decimals t)) <= 1 # 100.
Proof.
  intros H Hp. destruct (parts _ _ _ _ H) as (div & Hs & _). destruct (scale_ok _ _ _ _ (Qabs_nonneg val) Hs) as (Hd & _ & Hc & _). destruct (Hc Hp) as (-> & -> & H1 & H2).
  split; [reflexivity|]. split; [exact H1|]. split; [exact H2|]. pose proof (err _ _ _ _ _ H Hs Hd) as He. unfold reads. rewrite Hp. cbn [si].
  set (T := inject_Z (10 ^ decimals t)) in *.
  assert (number t * (1 # 100) - val / 10000 == (number t - val / 100) * (1 # 100)) as -> by field.
  rewrite abs_err by lra. set (a := Qabs (number t - val / 100)) in *.
  assert (a * (1 # 100) * (2 * T) == 2 * (a * T) * (1 # 100)) as -> by ring. lra.
Qed.
Lemma C99_relative_lem val d c t : unit_str val d c = Ok t -> pre t <> Centi -> (0 <= d)%Z -> Qabs (reads t - val) * (2 * inject_Z (10 ^ d)) <= Qabs val.
Proof.
  intros H Hp Hd0. destruct (parts _ _ _ _ H) as (div & Hs & Hdec & Hdig). destruct (scale_ok _ _ _ _ (Qabs_nonneg val) Hs) as (Hd & Hf & _ & Hz & _). specialize (Hf Hp).
  destruct Hz as [[Hz _]|[Hz Hlt]].
  - assert (val == 0) as Hv. { pose proof (Qle_Qabs val). pose proof (Qle_Qabs (- val)) as H'. rewrite Qabs_opp in H'. lra. }
    assert (digits t = 0%Z) as Ed. { rewrite Hdig, (round_comp _ 0); [reflexivity|]. rewrite Hv. field. lra. }
    assert (reads t - val == 0) as ->. { unfold reads, number. rewrite Ed, Hv. unfold Qdiv. ring. }
    change (Qabs 0) with 0. lra.
  - specialize (Hlt Hp). pose proof (err _ _ _ _ _ H Hs Hd) as He. unfold reads. rewrite <- Hf.
    pose proof (scaled val div Hd) as Ev. set (n := val / div) in *.
    assert (Qabs val == Qabs n * div) as Ea by (rewrite Ev at 1; apply abs_err; lra).
    assert (1 < Qabs n) as H1. { apply Qnot_le_lt. intros H1. assert (Qabs n * div <= 1 * div) by (apply Qmult_le_compat_r; lra). lra. }
    pose proof (fewer_enough n d H1) as Hw. rewrite <- Hdec in Hw. set (T := inject_Z (10 ^ decimals t)) in *. set (T' := inject_Z (10 ^ d)) in *.
    assert (number t * div - val == (number t - n) * div) as -> by (rewrite Ev at 1; ring).
    rewrite abs_err, Ea by lra. pose proof (Qabs_nonneg (number t - n)) as Ha. set (a := Qabs (number t - n)) in *.
    assert (a * T' <= a * (T * Qabs n)) as G1. { rewrite !(Qmult_comm a). apply Qmult_le_compat_r; assumption. }
    assert (a * T * Qabs n <= (1 # 2) * Qabs n) as G2 by (apply Qmult_le_compat_r; [exact He|lra]).
    assert (a * div * (2 * T') == 2 * (a * T') * div) as -> by ring. apply Qmult_le_compat_r; [|lra].
    assert (a * (T * Qabs n) == a * T * Qabs n) as G3 by ring. lra.
Qed.
Lemma C99_defined_lem val d c : (exists t, unit_str val d c = Ok t) <-> val == 0 \/ tiny < Qabs val.
Proof.
  assert (Qabs val == 0 <-> val == 0) as Ez.
  { split; intros H; [|rewrite H; reflexivity]. pose proof (Qle_Qabs val). pose proof (Qle_Qabs (- val)) as H'. rewrite Qabs_opp in H'. lra. }
  rewrite <- Ez, <- (scale_def (Qabs val) c (Qabs_nonneg val)). unfold unit_str. split.
  - intros [t H]. destruct (scale (Qabs val) c) as [r|]; [exists r; reflexivity|discriminate].
  - intros [[p div] ->]. eexists. reflexivity.
Qed.
Lemma C99_size_lem val d c t : unit_str val d c = Ok t -> pre t <> Centi -> ~ val == 0 ->
  si (pre t) < Qabs val /\ (pre t <> Kilo -> pre t <> Femto -> Qabs val <= 1000 * si (pre t)) /\ (pre t = Femto -> Qabs val <= 1000000 * si (pre t)).
Proof.
  intros H Hp Hv. destruct (parts _ _ _ _ H) as (div & Hs & _). destruct (scale_ok _ _ _ _ (Qabs_nonneg val) Hs) as (Hd & Hf & _ & Hz & H1 & H2). specialize (Hf Hp). rewrite <- Hf.
  split; [|split; [exact (H1 Hp)|exact H2]]. destruct Hz as [[Hz _]|[_ Hlt]]; [|exact (Hlt Hp)].
  exfalso. apply Hv. pose proof (Qle_Qabs val). pose proof (Qle_Qabs (- val)) as H'. rewrite Qabs_opp in H'. lra.
Qed.
Lemma abs_opp x : Qabs (- x) = Qabs x.
Proof. destruct x as [a b]. unfold Qopp, Qabs. cbn. rewrite Z.abs_opp. reflexivity. Qed.
Lemma fewer_small x d : x <= 10 -> fewer x d = if (d <? 0)%Z then 0%Z else d.
Proof. intros H. unfold fewer. cbv zeta. destruct (gtb_spec x 100); [lra|]. destruct (gtb_spec x 10); [lra|]. reflexivity. Qed.
Lemma C99_sign_lem val d c t : unit_str val d c = Ok t -> pre t <> Centi -> Qabs val <= 10 * si (pre t) -> unit_str (- val) d c = Ok (Label (- digits t) (decimals t) (pre t)).
Proof.
  intros H Hp Hv. destruct (parts _ _ _ _ H) as (div & Hs & Hdec & Hdig). destruct (scale_ok _ _ _ _ (Qabs_nonneg val) Hs) as (Hd & Hf & _). specialize (Hf Hp). rewrite <- Hf in Hv.
  assert (val / div <= 10) as H1. { apply Qle_shift_div_r; [exact Hd|]. pose proof (Qle_Qabs val). lra. }
  assert (- val / div <= 10) as H2. { apply Qle_shift_div_r; [exact Hd|]. pose proof (Qle_Qabs (- val)) as H'. rewrite abs_opp in H'. lra. }
  unfold unit_str. rewrite abs_opp, Hs. cbv zeta. rewrite fewer_small in * by assumption. rewrite <- Hdec, Hdig. f_equal. f_equal.
  rewrite <- round_opp. apply round_comp. field. lra.
Qed.
Lemma C99_centi_refuted_lem : exists val d t, unit_str val d true = Ok t /\ ~ Qabs (reads t - val) * (2 * inject_Z (10 ^ decimals t)) <= si (pre t).
Proof. exists (1 # 20), 3%Z, (Label 0 3 Centi). split; [reflexivity|]. vm_compute. intros H. apply H. reflexivity. Qed.
Lemma C99_pico_refuted_lem : exists val d t, unit_str val d false = Ok t /\ 1000 * si (pre t) < Qabs val /\ Qabs val < 1 # 1000000000.
Proof. exists (1 # 100000000000), 3%Z, (Label 100000 1 Femto). repeat split. Qed.
Lemma C99_sign_refuted_lem : exists val d t t', unit_str val d false = Ok t /\ unit_str (- val) d false = Ok t' /\ decimals t <> decimals t'.
Proof. exists 250, 3%Z, (Label 2500 1 Unity), (Label (-250000) 3 Unity). repeat split. discriminate. Qed.
Lemma C99_example_lem : exists val d t, unit_str val d false = Ok t /\ pre t <> Centi /\ (0 <= d)%Z /\ ~ val == 0 /\ Qabs val <= 10 * si (pre t) /\ digits t = 1234%Z /\ ~ reads t == val.
Proof. exists (12345 # 10000000), 3%Z, (Label 1234 3 Milli). repeat split; discriminate. Qed.
Lemma C99_example_c_lem : exists val d t, unit_str val d true = Ok t /\ pre t = Centi.
Proof. exists (1 # 20), 3%Z, (Label 0 3 Centi). split; reflexivity. Qed.
