(** Proofs about EZSqz: the parameters. *)
From Coq Require Import Reals Lra.
From stdpp Require Import base tactics list numbers.
From Verif Require Import Py Fld Herm ElecModel OptModel SigModel SqzModel SqzSpec.
Local Open Scope R_scope.

Lemma py_div_ok x y : y <> 0 -> py_div x y = Ok (x / y).
Proof. intros Hy. unfold py_div. by destruct (Req_EM_T y 0). Qed.
Lemma py_div_0 x y : y = 0 -> py_div x y = Err ZeroDivisionError.
Proof. intros Hy. unfold py_div. by destruct (Req_EM_T y 0). Qed.
Lemma sqr x : 0 <= x -> R_sqrt.sqrt x * R_sqrt.sqrt x = x.
Proof. apply R_sqrt.sqrt_def. Qed.
Lemma arg_refl x : arg_eqb x x = true.
Proof. destruct x as [a|]; [|done]. cbn. by destruct (Req_EM_T a a). Qed.
Lemma given_only V1 V2 loss : only_given (given_V V1 V2 loss) [Some V1; loss; V2] = true.
Proof.
  unfold only_given, check_all, given_V. cbn [forallb a_power a_field a_norm a_V1 a_V2 a_sqz a_anti a_loss].
  cbn [existsb]. rewrite !arg_refl. destruct V2, loss; cbn [arg_eqb orb andb]; rewrite ?orb_true_r; done.
Qed.
Lemma given_init V1 V2 loss : ez_init (given_V V1 V2 loss) = ez_variance V1 V2 loss.
Proof. unfold ez_init. cbn [given_V a_power a_field a_norm a_V1 a_V2 a_loss]. by rewrite given_only. Qed.

(** the gains, from x = (1 - V1) / (V2 - 1) *)
Lemma gains_from s : 0 < s -> s < 1 ->
  let G := (2 + R_sqrt.sqrt (4 + (- s - / (- s)) * (- s - / (- s)))) / 4 in
  let G1 := R_sqrt.sqrt G in let G2 := R_sqrt.sqrt (G - 1) in
  G1 * G1 - G2 * G2 = 1 /\ (G1 - G2) * (G1 - G2) = s /\ (G1 + G2) * (G1 + G2) = / s /\ 0 < G2.
Proof.
  intros H0 H1 G G1 G2.
  assert (Hi : 1 < / s) by (rewrite <- Rinv_1; apply Rinv_lt_contravar; lra).
  assert (EG : G = (2 + s + / s) / 4).
  { unfold G. f_equal. rewrite Rplus_assoc. f_equal.
    replace (4 + (- s - / - s) * (- s - / - s)) with ((s + / s) * (s + / s)) by (field; lra). apply R_sqrt.sqrt_square. lra. }
  assert (HG : 1 < G). { rewrite EG. assert (0 < (1 - s) * (1 - s) / s) by (apply Rdiv_lt_0_compat; nra). replace (s + / s) with (2 + (1 - s) * (1 - s) / s) by (field; lra).
    replace ((2 + s + / s) / 4) with (1 + (1 - s) * (1 - s) / s / 4) by (field; lra). lra. }
  assert (E1 : G1 * G1 = G) by (apply sqr; lra). assert (E2 : G2 * G2 = G - 1) by (apply sqr; lra).
  assert (P1 : 0 < G1) by (apply R_sqrt.sqrt_lt_R0; lra). assert (P2 : 0 < G2) by (apply R_sqrt.sqrt_lt_R0; lra).
  assert (E12 : 2 * (G1 * G2) = (/ s - s) / 2).
  { assert (Hsq : (2 * (G1 * G2)) * (2 * (G1 * G2)) = ((/ s - s) / 2) * ((/ s - s) / 2)).
    { transitivity (4 * (G1 * G1) * (G2 * G2)); [ring|]. rewrite E1, E2, EG. field. lra. }
    assert (0 < G1 * G2) by nra. nra. }
  split_and!; [lra| | |done].
  - transitivity (G1 * G1 + G2 * G2 - 2 * (G1 * G2)); [ring|]. rewrite E1, E2, E12, EG. field. lra.
  - transitivity (G1 * G1 + G2 * G2 + 2 * (G1 * G2)); [ring|]. rewrite E1, E2, E12, EG. field. lra.
Qed.
Lemma variance_lem V1 V2 loss : 0 < V1 -> V1 < 1 -> 1 <= V1 * V2 ->
  exists u, ez_variance V1 (Some V2) loss = Ok u /\ 0 <= u_loss u < 1 /\ 0 < u_G2 u /\ u_G1 u * u_G1 u - u_G2 u * u_G2 u = 1 /\
    (1 - u_loss u) * ((u_G1 u - u_G2 u) * (u_G1 u - u_G2 u)) + u_loss u = V1 /\
    (1 - u_loss u) * ((u_G1 u + u_G2 u) * (u_G1 u + u_G2 u)) + u_loss u = V2.
Proof.
  intros H0 H1 HV. assert (H2 : 1 < V2) by nra.
  assert (Hd : 0 < V1 + V2 - 2).
  { assert (0 < (1 - V1) * (1 - V1)) by nra. assert (1 - V1 * V1 <= V1 * V2 - V1 * V1) by lra. assert (V1 * (V2 - V1) >= (1 - V1) * (1 + V1)) by lra. nra. }
  set (s := (1 - V1) / (V2 - 1)).
  assert (Hs0 : 0 < s) by (apply Rdiv_lt_0_compat; lra).
  assert (Hs1 : s < 1). { apply (Rmult_lt_reg_r (V2 - 1)); [lra|]. unfold s. replace ((1 - V1) / (V2 - 1) * (V2 - 1)) with (1 - V1) by (field; lra). lra. }
  unfold ez_variance. rewrite py_div_ok by lra. cbn [mbind res_bind]. destruct (Req_EM_T V1 1) as [?|_]; [lra|].
  rewrite !py_div_ok by lra. cbn [mbind res_bind].
  assert (E1 : (V1 - 1) / (V2 - 1) = - s) by (unfold s; field; lra).
  assert (E2 : (V2 - 1) / (V1 - 1) = / (- s)) by (unfold s; field; lra). rewrite E1, E2.
  destruct (gains_from s Hs0 Hs1) as (A & B & C & D). cbv zeta in A, B, C, D.
  eexists. split; [reflexivity|]. cbn [u_loss u_G1 u_G2].
  assert (EL : (1 - V1 * V2) / (2 - V1 - V2) = (V1 * V2 - 1) / (V1 + V2 - 2)) by (field; lra). rewrite EL.
  assert (HL : 1 - (V1 * V2 - 1) / (V1 + V2 - 2) = (1 - V1) * (V2 - 1) / (V1 + V2 - 2)) by (field; lra).
  split_and!; [apply Rmult_le_pos; [lra|left; apply Rinv_0_lt_compat; lra]| |done|done| |].
  - assert (0 < (1 - V1) * (V2 - 1) / (V1 + V2 - 2)); [|lra]. apply Rdiv_lt_0_compat; [|lra]. apply Rmult_lt_0_compat; lra.
  - rewrite B, HL. unfold s. field. lra.
  - rewrite C, HL. unfold s. field. lra.
Qed.
(** the variances are treated alike *)
Lemma swapped_lem V1 V2 loss : V1 <> 1 -> V2 <> 1 -> ez_variance V1 (Some V2) loss = ez_variance V2 (Some V1) loss.
Proof.
  intros H1 H2. unfold ez_variance. replace (2 - V2 - V1) with (2 - V1 - V2) by ring. replace (V2 * V1) with (V1 * V2) by ring.
  destruct (Req_EM_T (2 - V1 - V2) 0) as [E|E]; [by rewrite !(py_div_0 (1 - V1 * V2) (2 - V1 - V2)) by exact E|].
  rewrite !py_div_ok by done. cbn [mbind res_bind]. destruct (Req_EM_T V1 1), (Req_EM_T V2 1); try done.
  rewrite !py_div_ok by lra. cbn [mbind res_bind]. set (a := (V1 - 1) / (V2 - 1)). set (b := (V2 - 1) / (V1 - 1)).
  replace ((b - a) * (b - a)) with ((a - b) * (a - b)) by ring. by replace ((1 - V2 * V1) / (2 - V2 - V1)) with ((1 - V1 * V2) / (2 - V1 - V2)) by (f_equal; ring || (field; lra)).
Qed.
Lemma pure_lem V1 : 0 < V1 -> V1 < 1 ->
  exists u, ez_variance V1 None None = Ok u /\ ez_variance V1 (Some (/ V1)) None = Ok u /\ u_loss u = 0.
Proof.
  intros H0 H1. assert (E : V1 * / V1 = 1) by (by apply Rinv_r, Rgt_not_eq).
  destruct (variance_lem V1 (/ V1) None H0 H1) as (u & Hu & Hl & _); [lra|]. exists u. split; [|split; [done|]].
  - rewrite <- Hu. unfold ez_variance. rewrite (py_div_ok 1 V1) by lra. cbn [mbind res_bind].
    assert (N : 2 - V1 - / V1 <> 0).
    { intros E'. assert (V1 * V1 - 2 * V1 + 1 = 0) by (assert (V1 * (2 - V1 - / V1) = 0) by (rewrite E'; ring); nra). nra. }
    replace (1 / V1) with (/ V1) by (unfold Rdiv; ring). rewrite (py_div_ok _ (2 - V1 - / V1)) by exact N. cbn [mbind res_bind].
    rewrite (py_div_ok (1 - V1 * / V1) (2 - V1 - / V1)) by exact N. done.
  - revert Hu. unfold ez_variance. destruct (Req_EM_T (2 - V1 - / V1) 0) as [E'|E'].
    { rewrite (py_div_0 (1 - V1 * / V1) (2 - V1 - / V1)) by exact E'. intros Hu. discriminate Hu. }
    rewrite py_div_ok by done. cbn [mbind res_bind]. destruct (Req_EM_T V1 1); [lra|].
    assert (1 < / V1) by (rewrite <- Rinv_1; apply Rinv_lt_contravar; lra).
    rewrite !py_div_ok by lra. cbn [mbind res_bind]. intros [= <-]. cbn [u_loss]. rewrite E. unfold Rdiv. ring.
Qed.
Lemma unit_lem V2 loss : V2 = None \/ V2 = Some 1 -> loss = None -> ez_variance 1 V2 loss = Err ZeroDivisionError.
Proof.
  intros [-> | ->] ->; unfold ez_variance.
  - rewrite py_div_ok by lra. cbn [mbind res_bind]. destruct (Req_EM_T 1 1); [|lra]. cbn [mbind res_bind].
    rewrite py_div_0 by lra. done.
  - rewrite (py_div_0 (1 - 1 * 1) (2 - 1 - 1)) by lra. done.
Qed.
(** rel_variance_1 = 1/2 with loss = 1/4 *)
Lemma loss_lem : exists u, ez_variance (1 / 2) None (Some (1 / 4)) = Ok u /\ u_loss u = 2 / 5.
Proof.
  unfold ez_variance. rewrite py_div_ok by lra. cbn [mbind res_bind]. destruct (Req_EM_T _ _); [lra|].
  rewrite !py_div_ok by lra. cbn [mbind res_bind]. eexists. split; [reflexivity|]. cbn [u_loss]. lra.
Qed.
(** the other ways to give the squeezing *)
Definition no_V (a : ez_args) : Prop := a_power a <> None \/ a_field a <> None \/ a_norm a <> None \/ a_V1 a = None.
Lemma others_lem a : no_V a -> exists e, ez_init a = Err e.
Proof.
  unfold no_V, ez_init, py_div. intros H.
  destruct (a_power a) as [p|]; [destruct (only_given _ _); eauto|].
  destruct (a_field a) as [f|]; [destruct (only_given _ _); [|eauto]; destruct (Req_EM_T f 0); cbn; eauto|].
  destruct (a_norm a) as [n|]; [destruct (only_given _ _); [|eauto]; destruct (Req_EM_T (1 - n) 0); cbn; eauto|].
  destruct (a_V1 a) as [V1|]; [naive_solver|]. destruct (a_sqz a); [destruct (only_given _ _)|]; eauto.
Qed.
(** a second parameter is noticed unless it equals one that is expected *)
Lemma conflict_lem V1 V2 loss s : let a := EzArgs None None None (Some V1) V2 (Some s) None loss in
  (s <> V1 /\ V2 <> Some s /\ loss <> Some s -> ez_init a = Err AssertionError) /\
  (s = V1 \/ V2 = Some s \/ loss = Some s -> ez_init a = ez_variance V1 V2 loss).
Proof.
  cbn zeta. unfold ez_init. cbn [a_power a_field a_norm a_V1 a_V2 a_sqz a_loss].
  assert (E : only_given (EzArgs None None None (Some V1) V2 (Some s) None loss) [Some V1; loss; V2] = arg_eqb (Some s) (Some V1) || (arg_eqb (Some s) loss || arg_eqb (Some s) V2)).
  { unfold only_given, check_all. cbn [a_power a_field a_norm a_V1 a_V2 a_sqz a_anti a_loss forallb existsb]. rewrite (arg_refl (Some V1)), (arg_refl V2), (arg_refl loss).
    rewrite ?orb_true_r, ?orb_true_l, ?orb_false_r, ?andb_true_r, ?andb_true_l. done. }
  rewrite E. split.
  - intros (H1 & H2 & H3). cbn [arg_eqb]. destruct (Req_EM_T s V1); [done|].
    destruct loss as [l|]; [destruct (Req_EM_T s l); [congruence|]|]; (destruct V2 as [v|]; [destruct (Req_EM_T s v); [congruence|]|]); done.
  - intros [-> |[-> | ->]]; rewrite !arg_refl, ?orb_true_r; done.
Qed.
