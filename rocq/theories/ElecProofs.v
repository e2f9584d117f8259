(** Proofs about the electrical elements. *)
From stdpp Require Import base tactics list numbers.
From Verif Require Import Fld Herm ElecModel ElecSpec.

Ltac emits_simpl := unfold emits; repeat first [rewrite fmap_cons | rewrite fmap_nil]; cbn [fsum app fst snd];
  repeat match goal with
  | |- context [@decide (?a = ?a) _] => rewrite (decide_True (P := a = a)) by reflexivity
  | |- context [@decide (?a = ?b) _] => rewrite (decide_False (P := a = b)) by discriminate
  end.

Section proofs.
  Context {K : fld}.
  Local Open Scope fld_scope.
  Add Field FE : (f_theory K).
  Notation two := (1 + 1 : K).

  Lemma eq_div (x a b : K) : b <> 0 -> (x = a / b <-> x * b = a).
  Proof. intros Hb. split; [intros ->; by field|intros <-; by field]. Qed.
  Lemma eq_move (a b c d : K) : a - b = c - d -> (a = b <-> c = d).
  Proof.
    intros E. split; intros H; apply fsub_0_eq; [rewrite <- E|rewrite E]; rewrite H; ring.
  Qed.
  Lemma eq_scale (k a b : K) : k <> 0 -> (a = b <-> k * a = k * b).
  Proof.
    intros Hk. split; [by intros ->|]. intros H. apply fsub_0_eq.
    assert (a - b = (k * a - k * b) / k) as -> by (field; done). rewrite H. field. done.
  Qed.
  (** two equations are equivalent when their defects are proportional *)
  Lemma eq_prop (k a b c d : K) : k <> 0 -> a - b = k * (c - d) -> (a = b <-> c = d).
  Proof.
    intros Hk E. rewrite (eq_scale k c d Hk). apply eq_move. rewrite E. ring.
  Qed.

  Lemma obeys1 es ss (w : nd pA -> K) : obeys [A1] es ss w <-> w (O A1) = emits es ss w (O A1).
  Proof. unfold obeys. setoid_rewrite elem_of_list_singleton. naive_solver. Qed.
  Lemma obeys2 es ss (w : nd pAB -> K) : obeys [AA; BB] es ss w <->
    w (O AA) = emits es ss w (O AA) /\ w (O BB) = emits es ss w (O BB).
  Proof.
    unfold obeys. split.
    - intros H. split; apply H; set_solver.
    - intros [H1 H2] [] _; done.
  Qed.
  Lemma obeys3 es ss (w : nd pAmp -> K) : obeys [InP; InN; Out] es ss w <->
    w (O InP) = emits es ss w (O InP) /\ w (O InN) = emits es ss w (O InN) /\ w (O Out) = emits es ss w (O Out).
  Proof.
    unfold obeys. split.
    - intros H. split_and!; apply H; set_solver.
    - intros (H1 & H2 & H3) [] _; done.
  Qed.
  Lemma obeys4 es ss (w : nd pABCD -> K) : obeys [PA; PB; PC; PD] es ss w <->
    w (O PA) = emits es ss w (O PA) /\ w (O PB) = emits es ss w (O PB) /\
    w (O PC) = emits es ss w (O PC) /\ w (O PD) = emits es ss w (O PD).
  Proof.
    unfold obeys. split.
    - intros H. split_and!; apply H; set_solver.
    - intros (H1 & H2 & H3 & H4) [] _; done.
  Qed.

  (** ** terminators *)
  Lemma t_impedance_lem Z0 Z (w : nd pA -> K) : Z0 <> 0 -> Z + Z0 <> 0 ->
    (obeys [A1] (t_impedance Z0 Z) [] w <-> volt w A1 = Z * curr Z0 w A1).
  Proof.
    intros H0 HZ. rewrite obeys1. unfold t_impedance, smatrix1, volt, curr. emits_simpl.
    apply (eq_prop (Z0 / (Z + Z0))); [|field; split; done]. intros Hc. apply H0.
    assert (Z0 = Z0 / (Z + Z0) * (Z + Z0)) as -> by (field; done). rewrite Hc. ring.
  Qed.
  Lemma div_neq_0 (a b : K) : a <> 0 -> b <> 0 -> a / b <> 0.
  Proof. intros Ha Hb Hc. apply Ha. assert (a = a / b * b) as -> by (field; done). rewrite Hc. ring. Qed.
  Lemma t_admittance_lem Z0 Y (w : nd pA -> K) : Z0 <> 0 -> 1 + Y * Z0 <> 0 ->
    (obeys [A1] (t_admittance Z0 Y) [] w <-> curr Z0 w A1 = Y * volt w A1).
  Proof.
    intros H0 HZ. rewrite obeys1. unfold t_admittance, smatrix1, volt, curr. emits_simpl.
    apply (eq_prop (- Z0 / (1 + Y * Z0))); [|field; split; done].
    apply div_neq_0; [|done]. intros Hc. apply H0. assert (Z0 = - - Z0) as -> by ring. rewrite Hc. ring.
  Qed.
  Lemma t_open_lem Z0 (w : nd pA -> K) : Z0 <> 0 -> (obeys [A1] t_open [] w <-> curr Z0 w A1 = 0).
  Proof.
    intros H0. rewrite obeys1. unfold t_open, smatrix1, curr. emits_simpl.
    apply (eq_prop (- Z0)); [|field; done]. intros Hc. apply H0. assert (Z0 = - - Z0) as -> by ring. rewrite Hc. ring.
  Qed.
  Lemma t_shorted_lem (w : nd pA -> K) : obeys [A1] t_shorted [] w <-> volt w A1 = 0.
  Proof. rewrite obeys1. unfold t_shorted, smatrix1, volt. emits_simpl. apply eq_move. ring. Qed.
  Lemma t_matched_lem Z0 (w : nd pA -> K) : Z0 <> 0 -> two <> 0 -> (obeys [A1] t_matched [] w <-> volt w A1 = Z0 * curr Z0 w A1).
  Proof.
    intros H0 H2. rewrite obeys1. unfold t_matched, smatrix1, volt, curr. emits_simpl.
    apply (eq_prop (1 / two)); [|field; done]. apply div_neq_0; [apply f1_neq_0|done].
  Qed.
  (** ** series *)
  Lemma s_impedance_lem Z0 Z (w : nd pAB -> K) : Z0 <> 0 -> two <> 0 -> Z + Z0 * two <> 0 ->
    (obeys [AA; BB] (s_impedance Z0 Z) [] w <->
     curr Z0 w AA + curr Z0 w BB = 0 /\ volt w AA - volt w BB = Z * curr Z0 w AA).
  Proof.
    intros H0 H2 HZ. rewrite obeys2. unfold s_impedance, smatrix2, volt, curr. emits_simpl. split.
    - intros [Ha Hb]. rewrite Ha, Hb. split; field; auto.
    - intros [Hc Hv].
      set (iA := w (I AA)) in *; set (iB := w (I BB)) in *; set (oA := w (O AA)) in *; set (oB := w (O BB)) in *.
      assert (oB = iA + iB - oA) as HB.
      { apply fsub_0_eq. assert (oB - (iA + iB - oA) = - Z0 * ((iA - oA) / Z0 + (iB - oB) / Z0)) as -> by (field; done). rewrite Hc. ring. }
      rewrite HB in *.
      assert (oA = (Z * iA + two * Z0 * iB) / (Z + Z0 * two)) as HA.
      { apply eq_div; [done|]. apply fsub_0_eq.
        assert (oA * (Z + Z0 * two) - (Z * iA + two * Z0 * iB) = Z0 * (iA + oA - (iB + (iA + iB - oA)) - Z * ((iA - oA) / Z0))) as -> by (field; done).
        rewrite Hv. ring. }
      rewrite HA. split; field; auto.
  Qed.
  Lemma s_admittance_lem Z0 Y (w : nd pAB -> K) : Z0 <> 0 -> two <> 0 -> 1 + Y * Z0 * two <> 0 ->
    (obeys [AA; BB] (s_admittance Z0 Y) [] w <->
     curr Z0 w AA + curr Z0 w BB = 0 /\ curr Z0 w AA = Y * (volt w AA - volt w BB)).
  Proof.
    intros H0 H2 HZ. rewrite obeys2. unfold s_admittance, smatrix2, volt, curr. emits_simpl. split.
    - intros [Ha Hb]. rewrite Ha, Hb. split; field; auto.
    - intros [Hc Hv].
      set (iA := w (I AA)) in *; set (iB := w (I BB)) in *; set (oA := w (O AA)) in *; set (oB := w (O BB)) in *.
      assert (oB = iA + iB - oA) as HB.
      { apply fsub_0_eq. assert (oB - (iA + iB - oA) = - Z0 * ((iA - oA) / Z0 + (iB - oB) / Z0)) as -> by (field; done). rewrite Hc. ring. }
      rewrite HB in *.
      assert (oA = (iA + two * Y * Z0 * iB) / (1 + Y * Z0 * two)) as HA.
      { apply eq_div; [done|]. apply fsub_0_eq.
        assert (oA * (1 + Y * Z0 * two) - (iA + two * Y * Z0 * iB) = - Z0 * ((iA - oA) / Z0 - Y * (iA + oA - (iB + (iA + iB - oA))))) as -> by (field; done).
        rewrite Hv. ring. }
      rewrite HA. split; field; auto.
  Qed.
  (** ** connections *)
  Lemma fsum_bind {A B} (f : B -> K) (g : A -> list B) l : fsum f (l ≫= g) = fsum (fun a => fsum f (g a)) l.
  Proof. induction l as [|a l IH]; [done|]. change ((a :: l) ≫= g) with (g a ++ (l ≫= g)). rewrite fsum_app, IH. done. Qed.
  Lemma fsum_const {A} (c : K) (l : list A) : fsum (fun _ => c) l = ofnat (length l) * c.
  Proof. induction l as [|a l IH]; cbn [fsum length ofnat]; [ring|]. rewrite IH. ring. Qed.
  Lemma connection_emits N (w : nd nat -> K) p : (p < N)%nat -> ofnat N <> (0 : K) ->
    emits (connection N) [] w (O p) = two / ofnat N * fsum (fun q => w (I q)) (seq 0 N) - w (I p).
  Proof.
    intros Hp HN. unfold emits, connection. cbn [fsum]. rewrite fsum_bind.
    rewrite (fsum_ext _ (fun q => two / ofnat N * w (I q) - (if decide (q = p) then w (I q) else 0))).
    2:{ intros q _. rewrite fsum_bind.
        rewrite (fsum_ext _ (fun r => if decide (r = p) then (if decide (q = p) then (two - ofnat N) / ofnat N else two / ofnat N) * w (I q) else 0)).
        2:{ intros r _. cbn [fsum fst snd]. destruct (decide (r = p)) as [->|Hr].
            - rewrite decide_True by done. destruct (decide (q = p)); ring.
            - rewrite decide_False by congruence. ring. }
        rewrite fsum_delta by apply NoDup_seq. rewrite decide_True by (apply elem_of_seq; lia).
        destruct (decide (q = p)); field; done. }
    rewrite fsum_sub, fsum_mul_l, fsum_delta by apply NoDup_seq. rewrite decide_True by (apply elem_of_seq; lia). ring.
  Qed.
  Lemma connection_lem N Z0 (w : nd nat -> K) : Z0 <> 0 -> ofnat N <> (0 : K) ->
    (obeys (seq 0 N) (connection N) [] w <->
     (forall p q, (p < N)%nat -> (q < N)%nat -> volt w p = volt w q) /\ fsum (curr Z0 w) (seq 0 N) = 0).
  Proof.
    intros H0 HN. set (S := fsum (fun q => w (I q)) (seq 0 N)). set (v := two / ofnat N * S).
    assert (obeys (seq 0 N) (connection N) [] w <-> forall p, (p < N)%nat -> volt w p = v) as ->.
    { unfold obeys. split.
      - intros H p Hp. unfold volt. rewrite (H p) by (apply elem_of_seq; lia). rewrite connection_emits by done. fold S. fold v. ring.
      - intros H p Hp%elem_of_seq. rewrite connection_emits by (done || lia). fold S. fold v. rewrite <- (H p) by lia. unfold volt. ring. }
    assert (forall u, (forall p, (p < N)%nat -> volt w p = u) -> fsum (curr Z0 w) (seq 0 N) = (two * S - ofnat N * u) / Z0) as Hsum.
    { intros u Hu. rewrite (fsum_ext _ (fun p => (two * w (I p) - u) * (1 / Z0))).
      - rewrite fsum_mul_r, fsum_sub, fsum_mul_l, fsum_const, seq_length. fold S. field. done.
      - intros p Hp%elem_of_seq. unfold curr. rewrite <- (Hu p) by lia. unfold volt. field. done. }
    split.
    - intros H. split; [intros p q Hp Hq; by rewrite !H|]. rewrite (Hsum v H). unfold v. field. done.
    - intros [Heq Hc] p Hp. rewrite (Hsum (volt w p)) in Hc by (intros; by apply Heq).
      unfold v. assert (two * S = ofnat N * volt w p) as HS.
      { apply fsub_0_eq. assert (two * S - ofnat N * volt w p = Z0 * ((two * S - ofnat N * volt w p) / Z0)) as -> by (field; done). rewrite Hc. ring. }
      assert (two / ofnat N * S = two * S / ofnat N) as -> by (field; done). rewrite HS. field. done.
  Qed.
  Lemma conn_out_eq N (x : nat -> K) p : (p < N)%nat -> ofnat N <> (0 : K) -> conn_out N x p = two / ofnat N * fsum x (seq 0 N) - x p.
  Proof. intros Hp HN. unfold conn_out. by rewrite connection_emits. Qed.
  Lemma conn_out_sum N (x : nat -> K) : ofnat N <> (0 : K) -> fsum (conn_out N x) (seq 0 N) = fsum x (seq 0 N).
  Proof.
    intros HN. rewrite (fsum_ext _ (fun p => two / ofnat N * fsum x (seq 0 N) - x p)).
    - rewrite fsum_sub, fsum_const, seq_length. change (fsum (fun a => x a)) with (fsum x). field. done.
    - intros p Hp%elem_of_seq. apply conn_out_eq; [lia|done].
  Qed.
  Lemma conn_involution N (x : nat -> K) p : (p < N)%nat -> ofnat N <> (0 : K) -> conn_out N (conn_out N x) p = x p.
  Proof. intros Hp HN. rewrite conn_out_eq, conn_out_sum, conn_out_eq by done. ring. Qed.
  Lemma conn_orthogonal N (x y : nat -> K) : ofnat N <> (0 : K) ->
    fsum (fun p => conn_out N x p * conn_out N y p) (seq 0 N) = fsum (fun p => x p * y p) (seq 0 N).
  Proof.
    intros HN. set (a := two / ofnat N * fsum x (seq 0 N)). set (b := two / ofnat N * fsum y (seq 0 N)).
    rewrite (fsum_ext _ (fun p => x p * y p + (a * b - (a * y p + b * x p)))).
    - rewrite fsum_add, fsum_sub, fsum_add, !fsum_mul_l, fsum_const, seq_length.
      change (fsum (fun a => x a)) with (fsum x). change (fsum (fun a => y a)) with (fsum y).
      unfold a, b. field. done.
    - intros p Hp%elem_of_seq. rewrite !conn_out_eq by (done || lia). fold a b. ring.
  Qed.

  (** ** sources *)
  Lemma voltage_source_lem V_DC (w : nd pA -> K) :
    obeys [A1] voltage_source (voltage_source_dc V_DC) w <-> volt w A1 = w (Sg 0) + V_DC.
  Proof.
    rewrite obeys1. unfold voltage_source, voltage_source_dc, smatrix1, volt.
    destruct (decide (V_DC = 0)) as [->|_]; emits_simpl; apply eq_move; ring.
  Qed.
  Lemma current_source_lem Z0 I_DC (w : nd pA -> K) : Z0 <> 0 ->
    (obeys [A1] (current_source Z0) (current_source_dc Z0 I_DC) w <-> curr Z0 w A1 = - (w (Sg 0) + I_DC)).
  Proof.
    intros H0. rewrite obeys1. unfold current_source, current_source_dc, smatrix1, curr.
    assert (- Z0 <> 0) as H1. { intros Hc. apply H0. assert (Z0 = - - Z0) as -> by ring. rewrite Hc. ring. }
    destruct (decide (I_DC = 0)) as [->|_]; emits_simpl; apply (eq_prop (- Z0)); try done; field; done.
  Qed.
  Lemma voltage_source_balanced_lem Z0 V_DC I_DC (w : nd pAB -> K) : Z0 <> 0 -> two <> 0 ->
    (obeys [AA; BB] (voltage_source_balanced Z0) (voltage_source_balanced_dc Z0 V_DC I_DC) w <->
     volt w AA - volt w BB = w (Sg 0) + V_DC /\ curr Z0 w AA + curr Z0 w BB = - (w (Sg 1) + I_DC)).
  Proof.
    intros H0 H2. rewrite obeys2. unfold voltage_source_balanced, smatrix2, volt, curr.
    assert (forall t, emits (smatrix2 0 1 1 0 ++ [(Sg 0, O AA, 1 / two); (Sg 0, O BB, - (1) / two); (Sg 1, O AA, Z0 / two); (Sg 1, O BB, Z0 / two)])
      (voltage_source_balanced_dc Z0 V_DC I_DC) w (O t) =
      match t with AA => w (I BB) + (w (Sg 0) + V_DC) / two + Z0 * (w (Sg 1) + I_DC) / two
                 | BB => w (I AA) - (w (Sg 0) + V_DC) / two + Z0 * (w (Sg 1) + I_DC) / two end) as HE.
    { intros t. unfold voltage_source_balanced_dc, smatrix2.
      destruct t, (decide (V_DC = 0)) as [->|_], (decide (I_DC = 0)) as [->|_]; emits_simpl; field; done. }
    rewrite !HE. split.
    - intros [-> ->]. split; field; auto.
    - intros [Hv Hc].
      set (iA := w (I AA)) in *; set (iB := w (I BB)) in *; set (oA := w (O AA)) in *; set (oB := w (O BB)) in *.
      set (V := w (Sg 0) + V_DC) in *. set (J := w (Sg 1) + I_DC) in *.
      assert (oA - oB = V + iB - iA) as E1 by (rewrite <- Hv; ring).
      assert (oA + oB = iA + iB + Z0 * J) as E2.
      { apply fsub_0_eq. assert (oA + oB - (iA + iB + Z0 * J) = - Z0 * ((iA - oA) / Z0 + (iB - oB) / Z0) - Z0 * J) as -> by (field; done). rewrite Hc. ring. }
      split.
      + transitivity (((oA + oB) + (oA - oB)) / two); [field; done|]. rewrite E1, E2. field. done.
      + transitivity (((oA + oB) - (oA - oB)) / two); [field; done|]. rewrite E1, E2. field. done.
  Qed.
  Lemma current_source_balanced_lem Z0 I_DC (w : nd pAB -> K) : Z0 <> 0 ->
    (obeys [AA; BB] (current_source_balanced Z0) (current_source_balanced_dc Z0 I_DC) w <->
     curr Z0 w AA = - (w (Sg 0) + I_DC) /\ curr Z0 w BB = - (w (Sg 0) + I_DC)).
  Proof.
    intros H0. rewrite obeys2. unfold current_source_balanced, current_source_balanced_dc, smatrix2, curr. emits_simpl.
    assert (- Z0 <> 0) as H1. { intros Hc. apply H0. assert (Z0 = - - Z0) as -> by ring. rewrite Hc. ring. }
    rewrite (eq_prop (- Z0) (w (O AA)) _ ((w (I AA) - w (O AA)) / Z0) (- (w (Sg 0) + I_DC)));
    [|done|field; done].
    rewrite (eq_prop (- Z0) (w (O BB)) _ ((w (I BB) - w (O BB)) / Z0) (- (w (Sg 0) + I_DC)));
    [|done|field; done]. done.
  Qed.

  (** ** amplifiers *)
  Lemma opamp_lem Z0 g (w : nd pAmp -> K) : Z0 <> 0 ->
    (obeys [InP; InN; Out] (opamp g) [] w <->
     curr Z0 w InP = 0 /\ curr Z0 w InN = 0 /\ volt w Out = g * (volt w InP - volt w InN)).
  Proof.
    intros H0. rewrite obeys3. unfold opamp, volt, curr. emits_simpl.
    assert (- Z0 <> 0) as H1. { intros Hc. apply H0. assert (Z0 = - - Z0) as -> by ring. rewrite Hc. ring. }
    assert (forall a b : K, (b - a) / Z0 = 0 <-> a = b) as Hz.
    { intros a b. symmetry. apply (eq_prop (- Z0)); [done|field; done]. }
    rewrite !Hz. split.
    - intros (Ha & Hb & Hc). assert (w (O InP) = w (I InP)) as HP by (rewrite Ha; ring).
      assert (w (O InN) = w (I InN)) as HN by (rewrite Hb; ring). split_and!; [done..|]. rewrite HP, HN, Hc. ring.
    - intros (Ha & Hb & Hc). rewrite Ha, Hb in *. split_and!; [ring..|].
      assert (w (O Out) = (w (I Out) + w (O Out)) - w (I Out)) as -> by ring. rewrite Hc. ring.
  Qed.
  Lemma vamp_lem Z0 g Yi (w : nd pAmp -> K) : Z0 <> 0 -> 1 + Yi * Z0 <> 0 ->
    (obeys [InN; Out] (vamp Z0 g Yi 0) [] w <-> curr Z0 w InN = Yi * volt w InN /\ volt w Out = - (g * volt w InN)).
  Proof.
    intros H0 H1. assert (obeys [InN; Out] (vamp Z0 g Yi 0) [] w <-> w (O InN) = emits (vamp Z0 g Yi 0) [] w (O InN) /\ w (O Out) = emits (vamp Z0 g Yi 0) [] w (O Out)) as ->.
    { unfold obeys. split; [intros H; split; apply H; set_solver|].
      intros [Ha Hb] p Hp. rewrite !elem_of_cons, elem_of_nil in Hp. destruct Hp as [->|[->|[]]]; done. }
    unfold vamp, volt, curr. emits_simpl.
    rewrite (eq_prop (- Z0 / (1 + Yi * Z0)) (w (O InN)) _ ((w (I InN) - w (O InN)) / Z0) (Yi * (w (I InN) + w (O InN)))).
    2:{ apply div_neq_0; [|done]. intros Hc. apply H0. assert (Z0 = - - Z0) as -> by ring. rewrite Hc. ring. }
    2:{ field. split; done. }
    rewrite (eq_move (w (O Out)) _ (w (I Out) + w (O Out)) (- (g * (w (I InN) + w (O InN))))); [done|].
    field. intros Hc. apply H0. rewrite <- Hc. ring.
  Qed.

  (** ** the two-by-two impedance element *)
  Lemma z2x2_lem Z0 Z11 Z12 Z22 (w : nd pABCD -> K) : Z0 <> 0 -> two <> 0 -> Z11 <> 0 -> Z12 <> 0 -> Z22 <> 0 ->
    1 / Z0 * (1 / Z0) * (Z11 * Z22 * Z12 * Z12) + two * (1 / Z0) * (Z12 * Z12) * (Z11 + Z22) - two * two * (Z11 * Z22 - Z12 * Z12) <> 0 ->
    obeys [PA; PB; PC; PD] (z2x2 Z0 Z11 Z12 Z12 Z22) [] w ->
    curr Z0 w PA + curr Z0 w PB = 0 /\ curr Z0 w PC + curr Z0 w PD = 0 /\
    curr Z0 w PA = (volt w PA - volt w PB) / Z11 + (volt w PC - volt w PD) / Z12 /\
    curr Z0 w PC = (volt w PA - volt w PB) / Z12 + (volt w PC - volt w PD) / Z22.
  Proof.
    intros H0 H2 H11 H12 H22 HD. rewrite obeys4. unfold z2x2. cbv zeta.
    set (D := _ - _) in *.
    assert (forall n : K, (if decide (n = 0) then 0 else n / D) = n / D) as Hdd.
    { intros n. destruct (decide (n = 0)) as [->|]; [|done]. field. done. }
    emits_simpl. rewrite !Hdd.
    unfold volt, curr. intros (-> & -> & -> & ->). clear Hdd.
    assert (exists Y, Y * Z0 = 1) as [Y HY] by (exists (1 / Z0); field; done).
    assert (Y <> 0) as HY0 by (intros ->; apply (@f1_neq_0 K); rewrite <- HY; ring).
    assert (Z0 = 1 / Y) as -> by (rewrite <- HY; field; done).
    assert (D = Y * Y * (Z11 * Z22 * Z12 * Z12) + two * Y * (Z12 * Z12) * (Z11 + Z22) - two * two * (Z11 * Z22 - Z12 * Z12)) as HDE.
    { unfold D. field. split_and!; (done || apply f1_neq_0). }
    clearbody D. subst D.
    split_and!; field; split_and!; (done || apply f1_neq_0).
  Qed.
End proofs.

Section meters.
  Context {K : fld} {P : Type} `{EqDecision P}.
  Local Open Scope fld_scope.
  Add Field FM : (f_theory K).
  Notation two := (1 + 1 : K).
  Lemma voltage_readout_lem (p q : P) (w : nd P -> K) :
    emits (voltage_readout p None) [] w (Sg 5) = volt w p /\ emits (voltage_readout p (Some q)) [] w (Sg 5) = volt w p - volt w q.
  Proof. unfold voltage_readout, volt. split; emits_simpl; ring. Qed.
  Lemma current_readout_lem Z0 (p : P) (w : nd P -> K) : Z0 <> 0 ->
    emits (current_readout Z0 p true) [] w (Sg 5) = curr Z0 w p /\ emits (current_readout Z0 p false) [] w (Sg 5) = - curr Z0 w p.
  Proof. intros H0. unfold current_readout, curr. split; emits_simpl; field; done. Qed.
  Lemma voltage_fluctuation_lem Z0 (p : P) (w : nd P -> K) (a e : K) : Z0 <> 0 -> two <> 0 ->
    w (I p) = a + emits (voltage_fluctuation p) [] w (I p) -> w (O p) = e + emits (voltage_fluctuation p) [] w (O p) ->
    a + w (O p) = (w (I p) + e) - w (Sg 7) /\ (a - w (O p)) / Z0 = (w (I p) - e) / Z0.
  Proof.
    intros H0 H2. unfold voltage_fluctuation. emits_simpl. intros -> ->. split; field; auto.
  Qed.
  Lemma current_fluctuation_lem Z0 (p : P) (w : nd P -> K) (a e : K) : Z0 <> 0 -> two <> 0 ->
    w (I p) = a + emits (current_fluctuation p) [] w (I p) -> w (O p) = e + emits (current_fluctuation p) [] w (O p) ->
    a + w (O p) = w (I p) + e /\ (a - w (O p)) / Z0 = (w (I p) - e) / Z0 - w (Sg 7) / Z0.
  Proof.
    intros H0 H2. unfold current_fluctuation. emits_simpl. intros -> ->. split; field; auto.
  Qed.
  (** a current meter on the fluctuating port itself *)
  Lemma meter_fluctuation_lem Z0 (p : P) (w : nd P -> K) (a e : K) : Z0 <> 0 -> two <> 0 ->
    w (I p) = a + emits (voltage_fluctuation p) [] w (I p) -> w (O p) = e + emits (voltage_fluctuation p) [] w (O p) ->
    emits (current_readout Z0 p true) [] w (Sg 5) = (a - w (O p)) / Z0 + w (Sg 7) / (two * Z0).
  Proof.
    intros H0 H2. unfold voltage_fluctuation, current_readout. emits_simpl. intros -> ->. field; auto.
  Qed.
End meters.

Section passive.
  Context {K : fld} (h : herm K).
  Local Open Scope fld_scope.
  Add Field FP : (f_theory K).
  Notation two := (1 + 1 : K).
  Notation conj := (h_conj h).
  Notation taken := (ElecSpec.taken h).
  Lemma conj_sub x y : conj (x - y) = conj x - conj y.
  Proof.
    assert (conj (x - y) + conj y = conj x) as <-; [|ring]. rewrite <- (h_conj_add K h). f_equal. ring.
  Qed.
  Lemma conj_opp x : conj (- x) = - conj x.
  Proof. assert (- x = 0 - x) as -> by ring. rewrite conj_sub, conj_0. ring. Qed.
  Lemma conj_fsum {A} (f : A -> K) l : conj (fsum f l) = fsum (fun a => conj (f a)) l.
  Proof. induction l as [|a l IH]; cbn [fsum]; [apply conj_0|]. by rewrite (h_conj_add K h), IH. Qed.
  Lemma conj_ofnat n : conj (ofnat n) = ofnat n.
  Proof. induction n as [|n IH]; cbn [ofnat]; [apply conj_0|]. by rewrite (h_conj_add K h), conj_1, IH. Qed.
  Lemma nn_half : h_nn h (1 / two).
  Proof.
    pose proof (two_neq_0 h) as H2.
    assert (1 / two = (1 / two) * conj (1 / two) * (1 + 1)) as ->.
    { rewrite conj_div, (h_conj_add K h), conj_1 by done. field. done. }
    apply (h_nn_mul K h); [apply (h_nn_sq K h)|]. apply (h_nn_add K h); apply nn_1.
  Qed.
  Section port.
    Context {P : Type} `{EqDecision P}.
    Lemma taken_eq Z0 (w : nd P -> K) p : Z0 <> 0 -> conj Z0 = Z0 ->
      taken w p = Z0 * (1 / two) * (volt w p * conj (curr Z0 w p) + conj (volt w p) * curr Z0 w p).
    Proof.
      intros H0 HZ. pose proof (two_neq_0 h) as H2. unfold ElecSpec.taken, power, volt, curr.
      rewrite conj_div, conj_sub, (h_conj_add K h), HZ by done. field. auto.
    Qed.
  End port.
  Context (Z0 : K) (H0 : Z0 <> 0) (HZ0 : h_nn h Z0).
  Lemma nn_z : h_nn h (Z0 * (1 / two)).
  Proof. apply (h_nn_mul K h); [done|apply nn_half]. Qed.
  Lemma t_impedance_passive Z (w : nd pA -> K) : Z + Z0 <> 0 -> h_nn h (Z + conj Z) ->
    obeys [A1] (t_impedance Z0 Z) [] w -> h_nn h (taken w A1).
  Proof.
    intros HZ Hn Ho%t_impedance_lem; [|done|done]. rewrite (taken_eq Z0) by (done || by apply (h_nn_conj K h)). rewrite Ho.
    rewrite (h_conj_mul K h).
    assert (forall c, Z * c * conj c + conj Z * conj c * c = (Z + conj Z) * (c * conj c)) as -> by (intros; ring).
    apply (h_nn_mul K h); [apply nn_z|]. apply (h_nn_mul K h); [done|]. apply (h_nn_sq K h).
  Qed.
  Lemma t_admittance_passive Y (w : nd pA -> K) : 1 + Y * Z0 <> 0 -> h_nn h (Y + conj Y) ->
    obeys [A1] (t_admittance Z0 Y) [] w -> h_nn h (taken w A1).
  Proof.
    intros HZ Hn Ho%t_admittance_lem; [|done|done]. rewrite (taken_eq Z0) by (done || by apply (h_nn_conj K h)). rewrite Ho.
    rewrite (h_conj_mul K h).
    assert (forall c, c * (conj Y * conj c) + conj c * (Y * c) = (Y + conj Y) * (c * conj c)) as -> by (intros; ring).
    apply (h_nn_mul K h); [apply nn_z|]. apply (h_nn_mul K h); [done|]. apply (h_nn_sq K h).
  Qed.
  Lemma series_taken (w : nd pAB -> K) : curr Z0 w AA + curr Z0 w BB = 0 ->
    taken w AA + taken w BB = Z0 * (1 / two) * ((volt w AA - volt w BB) * conj (curr Z0 w AA) + conj (volt w AA - volt w BB) * curr Z0 w AA).
  Proof.
    intros Hc. rewrite !(taken_eq Z0) by (done || by apply (h_nn_conj K h)).
    assert (curr Z0 w BB = - curr Z0 w AA) as ->.
    { apply fsub_0_eq. rewrite <- Hc. ring. }
    rewrite conj_opp, conj_sub. ring.
  Qed.
  Lemma s_impedance_passive Z (w : nd pAB -> K) : Z + Z0 * two <> 0 -> h_nn h (Z + conj Z) ->
    obeys [AA; BB] (s_impedance Z0 Z) [] w -> h_nn h (taken w AA + taken w BB).
  Proof.
    intros HZ Hn [Hc Hv]%s_impedance_lem; [|done|apply (two_neq_0 h)|done].
    rewrite series_taken, Hv by done. rewrite (h_conj_mul K h).
    assert (forall c, Z * c * conj c + conj Z * conj c * c = (Z + conj Z) * (c * conj c)) as -> by (intros; ring).
    apply (h_nn_mul K h); [apply nn_z|]. apply (h_nn_mul K h); [done|]. apply (h_nn_sq K h).
  Qed.
  Lemma s_admittance_passive Y (w : nd pAB -> K) : 1 + Y * Z0 * two <> 0 -> h_nn h (Y + conj Y) ->
    obeys [AA; BB] (s_admittance Z0 Y) [] w -> h_nn h (taken w AA + taken w BB).
  Proof.
    intros HZ Hn [Hc Hv]%s_admittance_lem; [|done|apply (two_neq_0 h)|done].
    rewrite series_taken, Hv by done. rewrite (h_conj_mul K h).
    assert (forall c, c * (conj Y * conj c) + conj c * (Y * c) = (Y + conj Y) * (c * conj c)) as -> by (intros; ring).
    apply (h_nn_mul K h); [apply nn_z|]. apply (h_nn_mul K h); [done|]. apply (h_nn_sq K h).
  Qed.
  Lemma connection_passive N (w : nd nat -> K) : ofnat N <> (0 : K) -> obeys (seq 0 N) (connection N) [] w ->
    fsum (taken w) (seq 0 N) = 0.
  Proof.
    intros HN Ho.
    assert (forall p, p ∈ seq 0 N -> w (O p) = conn_out N (fun q => w (I q)) p) as Hw.
    { intros p Hp. rewrite (Ho p Hp). apply elem_of_seq in Hp. unfold conn_out. rewrite !connection_emits by (done || lia). done. }
    assert (forall p, p ∈ seq 0 N -> conj (w (O p)) = conn_out N (fun q => conj (w (I q))) p) as Hcw.
    { intros p Hp. rewrite (Hw p Hp). apply elem_of_seq in Hp. rewrite !conn_out_eq by (done || lia).
      rewrite conj_sub, (h_conj_mul K h), conj_div, (h_conj_add K h), conj_1, conj_ofnat, conj_fsum by done. done. }
    unfold ElecSpec.taken. rewrite fsum_sub. unfold power.
    rewrite (fsum_ext (fun p => w (O p) * conj (w (O p))) (fun p => conn_out N (fun q => w (I q)) p * conn_out N (fun q => conj (w (I q))) p)).
    - rewrite conn_orthogonal by done. ring.
    - intros p Hp. rewrite Hcw, Hw by done. done.
  Qed.
  Lemma cable_passive ph (w : nd pAB -> K) : h_nn h (1 - power h ph) -> obeys [AA; BB] (cable ph) [] w ->
    h_nn h (taken w AA + taken w BB).
  Proof.
    intros Hn Ho. rewrite obeys2 in Ho. unfold cable in Ho. revert Ho. emits_simpl. intros [Ha Hb].
    unfold ElecSpec.taken, power in *. rewrite Ha, Hb, !(h_conj_add K h), !(h_conj_mul K h), !conj_0.
    match goal with |- h_nn h ?x => assert (x = (1 - ph * conj ph) * (w (I AA) * conj (w (I AA)) + w (I BB) * conj (w (I BB)))) as -> by ring end.
    apply (h_nn_mul K h); [done|]. apply (h_nn_add K h); apply (h_nn_sq K h).
  Qed.
End passive.
