From Coq Require Import ZArith Lia Sorting.
From stdpp Require Import base tactics list numbers.
From Verif Require Import Fld Py BitsModel.
Local Open Scope Z_scope.

Lemma lxor_even_odd a b : Z.lxor (2 * a) (2 * b + 1) = 2 * Z.lxor a b + 1.
Proof.
  apply Z.bits_inj'. intros i Hi. rewrite Z.lxor_spec.
  destruct (decide (i = 0)) as [->|Hn].
  - by rewrite Z.testbit_even_0, !Z.testbit_odd_0.
  - assert (i = Z.succ (i - 1)) as -> by lia.
    rewrite Z.testbit_even_succ, !Z.testbit_odd_succ by lia. by rewrite Z.lxor_spec.
Qed.
Lemma lxor_odd_even a b : Z.lxor (2 * a + 1) (2 * b) = 2 * Z.lxor a b + 1.
Proof. by rewrite Z.lxor_comm, lxor_even_odd, Z.lxor_comm. Qed.
Lemma lxor_odd_odd a b : Z.lxor (2 * a + 1) (2 * b + 1) = 2 * Z.lxor a b.
Proof.
  apply Z.bits_inj'. intros i Hi. rewrite Z.lxor_spec.
  destruct (decide (i = 0)) as [->|Hn].
  - by rewrite Z.testbit_even_0, !Z.testbit_odd_0.
  - assert (i = Z.succ (i - 1)) as -> by lia.
    rewrite Z.testbit_even_succ, !Z.testbit_odd_succ by lia. by rewrite Z.lxor_spec.
Qed.
Lemma lxor_even_even a b : Z.lxor (2 * a) (2 * b) = 2 * Z.lxor a b.
Proof.
  apply Z.bits_inj'. intros i Hi. rewrite Z.lxor_spec.
  destruct (decide (i = 0)) as [->|Hn].
  - by rewrite !Z.testbit_even_0.
  - assert (i = Z.succ (i - 1)) as -> by lia.
    rewrite !Z.testbit_even_succ by lia. by rewrite Z.lxor_spec.
Qed.

(** the lowest set bit *)
Lemma numbit_eq (k : nat) m :
  Z.shiftr (Z.lxor (2 ^ Z.of_nat k * (2 * m + 1)) (2 ^ Z.of_nat k * (2 * m + 1) - 1) + 1) 1 = 2 ^ Z.of_nat k.
Proof.
  assert (Z.lxor (2 ^ Z.of_nat k * (2 * m + 1)) (2 ^ Z.of_nat k * (2 * m + 1) - 1) = 2 * 2 ^ Z.of_nat k - 1) as ->.
  { induction k as [|k IH].
    - rewrite Z.pow_0_r, !Z.mul_1_l. replace (2 * m + 1 - 1) with (2 * m) by lia.
      rewrite lxor_odd_even, Z.lxor_nilpotent. lia.
    - rewrite Nat2Z.inj_succ, Z.pow_succ_r by lia.
      set (a := 2 ^ Z.of_nat k * (2 * m + 1)) in *.
      replace (2 * 2 ^ Z.of_nat k * (2 * m + 1)) with (2 * a) by (unfold a; lia).
      replace (2 * a - 1) with (2 * (a - 1) + 1) by lia. rewrite lxor_even_odd, IH. lia. }
  rewrite Z.shiftr_div_pow2 by lia. change (2 ^ 1) with 2.
  replace (2 * 2 ^ Z.of_nat k - 1 + 1) with (2 ^ Z.of_nat k * 2) by lia. by apply Z.div_mul.
Qed.

Lemma lxor_low (k : nat) m : Z.lxor (2 ^ Z.of_nat k * (2 * m + 1)) (2 ^ Z.of_nat k) = 2 ^ (Z.of_nat (S k)) * m.
Proof.
  induction k as [|k IH].
  - cbn [Z.of_nat]. rewrite Z.pow_0_r, !Z.mul_1_l. change 1 with (2 * 0 + 1) at 2.
    rewrite lxor_odd_odd, Z.lxor_0_r. lia.
  - rewrite !(Nat2Z.inj_succ (S k)), (Z.pow_succ_r _ (Z.of_nat (S k))) by lia.
    rewrite (Nat2Z.inj_succ k) at 1 2. rewrite Z.pow_succ_r by lia.
    rewrite <- Z.mul_assoc, lxor_even_even, IH. lia.
Qed.

Lemma odd_part n : n <> 0 -> exists (k : nat) m, n = 2 ^ Z.of_nat k * (2 * m + 1).
Proof.
  intros Hn. assert (forall b, forall n, n <> 0 -> (Z.to_nat (Z.abs n) < b)%nat -> exists (k : nat) m, n = 2 ^ Z.of_nat k * (2 * m + 1)) as G.
  { clear. induction b as [|b IH]; intros n Hn Hb; [lia|].
    destruct (Z.Even_or_Odd n) as [[h ->]|[h ->]].
    - destruct (IH h) as (k & m & E); [lia|lia|]. exists (S k), m.
      rewrite Nat2Z.inj_succ, Z.pow_succ_r by lia. lia.
    - exists O, h. rewrite Z.pow_0_r. lia. }
  apply (G (S (Z.to_nat (Z.abs n)))); [done|lia].
Qed.

Lemma table_ok : Forall (fun r => bit_lookup_37 !! Z.to_nat (2 ^ Z.of_nat r mod 37) = Some (Some (Z.of_nat r))) (seq 0 36).
Proof. vm_decide. Qed.
Lemma table_lookup r : (r < 36)%nat ->
  bit_lookup_37 !! Z.to_nat (2 ^ Z.of_nat r mod 37) = Some (Some (Z.of_nat r)).
Proof. intros Hr. apply (proj1 (Forall_forall _ _) table_ok). apply elem_of_seq. lia. Qed.

Lemma downshift_ok q : forall fuel shift r m, (r < 36)%nat -> (q <= fuel)%nat ->
  downshift fuel shift (2 ^ Z.of_nat (36 * q + r) * (2 * m + 1)) (2 ^ Z.of_nat (36 * q + r))
  = Ok (shift + 36 * Z.of_nat q, 2 ^ Z.of_nat r * (2 * m + 1), 2 ^ Z.of_nat r).
Proof.
  induction q as [|q IH]; intros fuel shift r m Hr Hf.
  - assert (2 ^ Z.of_nat r < bit_lookup_37_max) as Hlt.
    { unfold bit_lookup_37_max. rewrite Z.shiftl_1_l. apply Z.pow_lt_mono_r; lia. }
    rewrite Nat.mul_0_r, Nat.add_0_l, Z.mul_0_r, Z.add_0_r.
    destruct fuel; cbn [downshift]; rewrite decide_False by lia; done.
  - destruct fuel as [|fuel]; [lia|]. cbn [downshift].
    assert (2 ^ Z.of_nat (36 * S q + r) = 2 ^ Z.of_nat (36 * q + r) * 2 ^ 36) as E.
    { rewrite <- Z.pow_add_r by lia. f_equal. lia. }
    rewrite decide_True.
    2: { unfold bit_lookup_37_max. rewrite Z.shiftl_1_l. apply Z.pow_le_mono_r; lia. }
    rewrite !Z.shiftr_div_pow2 by lia. rewrite E.
    rewrite Z.div_mul by (apply Z.pow_nonzero; lia).
    replace (2 ^ Z.of_nat (36 * q + r) * 2 ^ 36 * (2 * m + 1)) with (2 ^ Z.of_nat (36 * q + r) * (2 * m + 1) * 2 ^ 36) by lia.
    rewrite Z.div_mul by (apply Z.pow_nonzero; lia).
    rewrite IH by lia. do 3 f_equal. lia.
Qed.

Lemma bits_loop_ok : forall (b : nat) num, 0 <= num -> (Z.to_nat num < b)%nat ->
  forall shift, exists c l, (forall f out, (c <= f)%nat -> bits_loop f shift num out = Ok (out ++ l)) /\
    (forall p, p ∈ l <-> shift <= p /\ Z.testbit num (p - shift) = true) /\
    StronglySorted Z.lt l.
Proof.
  induction b as [|b IH]; intros num Hn Hb shift; [lia|].
  destruct (decide (num = 0)) as [->|Hne].
  - exists O, []. split_and!.
    + intros f out _. destruct f; cbn [bits_loop]; rewrite decide_True by done; by rewrite app_nil_r.
    + intros p. rewrite Z.testbit_0_l. set_solver.
    + constructor.
  - destruct (odd_part num Hne) as (k & m & ->).
    assert (0 < 2 ^ Z.of_nat k) as Hk by (apply Z.pow_pos_nonneg; lia).
    assert (0 <= m) as Hm by nia.
    set (q := (k / 36)%nat). set (r := (k mod 36)%nat).
    assert (k = (36 * q + r)%nat) as Ek by apply Nat.div_mod_eq.
    assert (r < 36)%nat as Hr by (apply Nat.mod_upper_bound; lia).
    assert (0 < 2 ^ Z.of_nat r <= 2 ^ Z.of_nat k) as Hrk.
    { split; [apply Z.pow_pos_nonneg; lia|apply Z.pow_le_mono_r; lia]. }
    assert (2 ^ Z.of_nat (S r) * m < 2 ^ Z.of_nat k * (2 * m + 1)) as Hdec.
    { rewrite Nat2Z.inj_succ, Z.pow_succ_r by lia. nia. }
    destruct (IH (2 ^ Z.of_nat (S r) * m)) with (shift := shift + 36 * Z.of_nat q) as (c & l & Hc & Hl & Hs).
    { apply Z.mul_nonneg_nonneg; [apply Z.pow_nonneg|]; lia. }
    { assert (0 <= 2 ^ Z.of_nat (S r) * m) by (apply Z.mul_nonneg_nonneg; [apply Z.pow_nonneg|]; lia). lia. }
    assert (forall p, p ∈ l <-> shift + 36 * Z.of_nat q + Z.of_nat r < p /\ Z.testbit m (p - shift - Z.of_nat k - 1) = true) as Hl'.
    { intros p. rewrite Hl. rewrite (Z.mul_comm (2 ^ _) m), <- Z.shiftl_mul_pow2 by lia. rewrite Nat2Z.inj_succ.
      split.
      - intros [H1 H2]. rewrite Z.shiftl_spec in H2 by lia.
        destruct (decide (p - (shift + 36 * Z.of_nat q) - Z.succ (Z.of_nat r) < 0)) as [Hneg|Hpos].
        + by rewrite Z.testbit_neg_r in H2.
        + split; [lia|]. rewrite <- H2. f_equal. lia.
      - intros [H1 H2]. split; [lia|]. rewrite Z.shiftl_spec by lia. rewrite <- H2. f_equal. lia. }
    exists (S (c + q)), ((shift + Z.of_nat k) :: l). split_and!.
    + intros f out Hf. destruct f as [|f]; [lia|]. cbn [bits_loop]. rewrite decide_False by done.
      rewrite numbit_eq. rewrite Ek at 1 2. rewrite downshift_ok by lia. cbn [mbind res_bind].
      rewrite table_lookup by done. rewrite lxor_low. rewrite Hc by lia.
      rewrite <- app_assoc. cbn [app]. do 3 f_equal. lia.
    + intros p. rewrite elem_of_cons, Hl'.
      rewrite (Z.mul_comm (2 ^ Z.of_nat k)), <- Z.shiftl_mul_pow2 by lia. split.
      * intros [->|[H1 H2]].
        -- split; [lia|]. rewrite Z.shiftl_spec by lia.
           replace (shift + Z.of_nat k - shift - Z.of_nat k) with 0 by lia. apply Z.testbit_odd_0.
        -- split; [lia|]. rewrite Z.shiftl_spec by lia.
           replace (p - shift - Z.of_nat k) with (Z.succ (p - shift - Z.of_nat k - 1)) by lia.
           rewrite Z.testbit_odd_succ by lia. done.
      * intros [H1 H2]. rewrite Z.shiftl_spec in H2 by lia.
        destruct (decide (p - shift - Z.of_nat k < 0)) as [Hneg|Hpos].
        { by rewrite Z.testbit_neg_r in H2. }
        destruct (decide (p - shift - Z.of_nat k = 0)) as [E|Hnz]; [left; lia|right].
        split; [lia|]. replace (p - shift - Z.of_nat k) with (Z.succ (p - shift - Z.of_nat k - 1)) in H2 by lia.
        rewrite Z.testbit_odd_succ in H2 by lia. done.
    + constructor; [done|]. apply Forall_forall. intros p Hp. apply Hl' in Hp. lia.
Qed.

Lemma bits_ok n : 0 <= n ->
  exists c l, (forall f, (c <= f)%nat -> yield_bits_on f n = Ok l) /\
    (forall p, p ∈ l <-> 0 <= p /\ Z.testbit n p = true) /\ StronglySorted Z.lt l.
Proof.
  intros Hn. destruct (bits_loop_ok (S (Z.to_nat n)) n Hn ltac:(lia) 0) as (c & l & H1 & H2 & H3).
  exists c, l. split_and!; [|intros p; by rewrite H2, Z.sub_0_r|done].
  intros f Hf. unfold yield_bits_on. by rewrite H1.
Qed.

(** a negative number never runs out of set bits *)
Lemma bits_negative f : forall shift num out, num < 0 -> bits_loop f shift num out = Err OutOfFuel.
Proof.
  induction f as [|f IH]; intros shift num out Hn; cbn [bits_loop]; rewrite decide_False by lia; [done|].
  destruct (odd_part num) as (k & m & ->); [lia|].
  assert (0 < 2 ^ Z.of_nat k) as Hk by (apply Z.pow_pos_nonneg; lia).
  assert (m < 0) as Hm by nia.
  rewrite numbit_eq.
  set (q := (k / 36)%nat). set (r := (k mod 36)%nat).
  assert (k = (36 * q + r)%nat) as Ek by apply Nat.div_mod_eq.
  assert (r < 36)%nat as Hr by (apply Nat.mod_upper_bound; lia).
  destruct (decide (q <= S f)%nat) as [Hq|Hq].
  - rewrite Ek at 1 2. rewrite downshift_ok by lia. cbn [mbind res_bind].
    rewrite table_lookup by done. rewrite lxor_low. apply IH.
    assert (0 < 2 ^ Z.of_nat (S r)) by (apply Z.pow_pos_nonneg; lia). nia.
  - assert (forall f q shift num, (f < q)%nat -> downshift f shift num (2 ^ Z.of_nat (36 * q + r)) = Err OutOfFuel) as G.
    { clear. induction f as [|f IHf]; intros q shift num Hq.
      - cbn [downshift]. rewrite decide_True; [done|].
        unfold bit_lookup_37_max. rewrite Z.shiftl_1_l. apply Z.pow_le_mono_r; lia.
      - cbn [downshift]. rewrite decide_True.
        2: { unfold bit_lookup_37_max. rewrite Z.shiftl_1_l. apply Z.pow_le_mono_r; lia. }
        rewrite (Z.shiftr_div_pow2 (2 ^ _)) by lia.
        destruct q as [|q]; [lia|].
        assert (2 ^ Z.of_nat (36 * S q + r) = 2 ^ Z.of_nat (36 * q + r) * 2 ^ 36) as ->.
        { rewrite <- Z.pow_add_r by lia. f_equal. lia. }
        rewrite Z.div_mul by (apply Z.pow_nonzero; lia). apply IHf. lia. }
    rewrite Ek at 2. rewrite G by lia. done.
Qed.
