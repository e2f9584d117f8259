(** Proofs about spaces, circulators and rotators. *)
From stdpp Require Import base tactics list numbers.
From Coq Require Import QArith Qreals Reals Lra.
From Verif Require Import Fld Herm ElecModel ElecSpec ElecProofs OptModel OptSpec OptProofs.

(** ** phases *)
Local Open Scope fld_scope.
Add Field FCO : (f_theory C_fld).
Lemma pair_eq_iff {A B} (a a' : A) (b b' : B) : (a, b) = (a', b') <-> a = a' /\ b = b'.
Proof. split; [by intros [= -> ->]|by intros [-> ->]]. Qed.
Lemma cis_add a b : cis (a + b) = cis a * cis b.
Proof. unfold cis. cbn. unfold C_mul. cbn. rewrite cos_plus, sin_plus. f_equal; ring. Qed.
Lemma cis_0 : cis 0 = 1.
Proof. unfold cis. by rewrite cos_0, sin_0. Qed.
Lemma cis_neg a : cis (- a) = h_conj C_herm (cis a).
Proof. unfold cis. cbn. unfold C_conj. cbn. by rewrite cos_neg, sin_neg. Qed.
Lemma cis_sq a : cis a * h_conj C_herm (cis a) = 1.
Proof. rewrite <- cis_neg, <- cis_add. rewrite Rplus_opp_r. apply cis_0. Qed.
Lemma power_cis a x : power C_herm (cis a * x) = power C_herm x.
Proof.
  unfold power. rewrite (h_conj_mul C_fld C_herm).
  transitivity ((cis a * h_conj C_herm (cis a)) * (x * h_conj C_herm x)); [ring|]. rewrite cis_sq. ring.
Qed.

(** ** spaces *)
Lemma space_lem c sp lower i F (w : nd p2 -> C_fld) :
  obeys [Fr; Bk] (space c sp lower i F) [] w <->
  let g := cis (if lower then - phase_arg c sp i F else phase_arg c sp i F)%R in
  w (O Bk) = g * w (I Fr) /\ w (O Fr) = g * w (I Bk).
Proof.
  unfold space, phase_lower, phase_raise. set (g := if lower then _ else _).
  assert (g = cis (if lower then - phase_arg c sp i F else phase_arg c sp i F)%R) as -> by (by destruct lower).
  cbv zeta. split.
  - intros Ho. pose proof (Ho Fr ltac:(set_solver)) as H1. pose proof (Ho Bk ltac:(set_solver)) as H2.
    revert H1 H2. emits_simpl. intros -> ->. split; ring.
  - intros [H1 H2] p Hp. destruct p; rewrite ?H1, ?H2; emits_simpl; ring.
Qed.
Lemma phase_arg_sum c sps i F : c <> 0%R ->
  phase_arg c (total_args sps) i F = foldr Rplus 0%R ((fun sp => phase_arg c sp i F) <$> sps).
Proof.
  intros Hc. induction sps as [|sp sps IH].
  - unfold phase_arg, total_args. cbn. field. done.
  - rewrite fmap_cons. cbn [foldr]. rewrite <- IH. unfold phase_arg, total_args. rewrite !fmap_cons. cbn. field. done.
Qed.

(** ** circulators *)
Lemma circ_next N k : (k < N)%nat -> exists k', (k' < N)%nat /\ ((k' + 1) mod N)%nat = k.
Proof.
  intros Hk. destruct k as [|k].
  - exists (N - 1)%nat. split; [lia|]. replace (N - 1 + 1)%nat with N by lia. apply Nat.mod_same. lia.
  - exists k. split; [lia|]. rewrite Nat.mod_small; lia.
Qed.
Lemma circ_inj N j k : (j < N)%nat -> (k < N)%nat -> ((j + 1) mod N = (k + 1) mod N)%nat -> j = k.
Proof.
  intros Hj Hk H. destruct (decide (j + 1 = N)%nat) as [Ej|], (decide (k + 1 = N)%nat) as [Ek|].
  - lia.
  - rewrite Ej, Nat.mod_same, Nat.mod_small in H; lia.
  - rewrite Ek, Nat.mod_same, Nat.mod_small in H; lia.
  - rewrite !Nat.mod_small in H; lia.
Qed.
Section circ.
  Context {K : fld}.
  Add Field FCI : (f_theory K).
  Lemma circ_emits N (w : nd nat -> K) k : (k < N)%nat -> emits (circulator N) [] w (O ((k + 1) mod N)%nat) = w (I k).
  Proof.
    intros Hk. unfold emits, circulator. rewrite fsum_map. cbn [fsum fst snd].
    rewrite (fsum_ext _ (fun j => if decide (j = k) then w (I k) else 0)).
    - rewrite fsum_delta by apply NoDup_seq. rewrite decide_True by (apply elem_of_seq; lia). ring.
    - intros j Hj%elem_of_seq. destruct (decide (j = k)) as [-> |Hne].
      + rewrite decide_True by done. ring.
      + rewrite decide_False; [done|]. intros [= H]. apply Hne, (circ_inj N); [lia|lia|done].
  Qed.
  Lemma circulator_lem N (w : nd nat -> K) :
    obeys (seq 0 N) (circulator N) [] w <-> forall k, (k < N)%nat -> w (O ((k + 1) mod N)%nat) = w (I k).
  Proof.
    split.
    - intros Ho k Hk. rewrite Ho; [by apply circ_emits|]. apply elem_of_seq. split; [lia|]. apply Nat.mod_upper_bound. lia.
    - intros H k Hk%elem_of_seq. destruct (circ_next N k) as (k' & Hk' & <-); [lia|]. rewrite H, circ_emits; done.
  Qed.
  Lemma circ_iter (N k n : nat) : (k < N)%nat -> Nat.iter n (fun j => ((j + 1) mod N)%nat) k = ((k + n) mod N)%nat.
  Proof.
    intros Hk. induction n as [|n IH]; cbn [Nat.iter nat_rect].
    - rewrite Nat.mod_small; lia.
    - unfold Nat.iter in IH. rewrite IH. rewrite Nat.add_mod_idemp_l by lia. f_equal. lia.
  Qed.
End circ.

(** ** rotators *)
Definition cr (x : R) : C_fld := C_of x.
Lemma cr_add x y : cr (x + y) = cr x + cr y.
Proof. unfold cr, C_of. cbn. unfold C_add. cbn. f_equal. ring. Qed.
Lemma cr_mul x y : cr (x * y) = cr x * cr y.
Proof. unfold cr, C_of. cbn. unfold C_mul. cbn. f_equal; ring. Qed.
Lemma cr_opp x : cr (- x) = - cr x.
Proof. unfold cr, C_of. cbn. unfold C_opp. cbn. f_equal. ring. Qed.
Lemma cr_sub x y : cr (x - y) = cr x - cr y.
Proof. unfold cr, C_of. cbn. unfold C_sub. cbn. f_equal. ring. Qed.
Lemma rot_cr a v : rot a v = (cr (cos a) * v.1 - cr (sin a) * v.2, cr (sin a) * v.1 + cr (cos a) * v.2).
Proof. done. Qed.
Lemma rot_rot a b v : rot a (rot b v) = rot (a + b) v.
Proof. rewrite !rot_cr. cbn [fst snd]. rewrite cos_plus, sin_plus, cr_sub, cr_add, !cr_mul. f_equal; ring. Qed.
Lemma rot_0 v : rot 0 v = v.
Proof. rewrite rot_cr, cos_0, sin_0. destruct v as [x y]. cbn [fst snd]. change (cr 1) with (1 : C_fld). change (cr 0) with (0 : C_fld). f_equal; ring. Qed.

Lemma rot_arg_rad deg : rot_arg deg = radians deg.
Proof. unfold rot_arg, radians. field. Qed.
Lemma deg_in_true deg l : deg_in deg l = true -> exists z, z ∈ l /\ radians deg = (PI * IZR z / 180)%R.
Proof.
  unfold deg_in. rewrite existsb_exists. intros (z & Hz & H). exists z. split; [by apply elem_of_list_In|].
  apply Qeq_bool_iff, Qeq_eqR in H. unfold radians. rewrite H. f_equal. f_equal. unfold Q2R, inject_Z. cbn. field.
Qed.
Lemma cs_180 z : z ∈ [180; -180]%Z -> cos (PI * IZR z / 180) = (-1)%R /\ sin (PI * IZR z / 180) = 0%R.
Proof.
  rewrite !elem_of_cons, elem_of_nil. intros [-> |[-> |[]]].
  - replace (PI * 180 / 180)%R with PI by field. by rewrite cos_PI, sin_PI.
  - replace (PI * (-180) / 180)%R with (- PI)%R by field. rewrite cos_neg, sin_neg, cos_PI, sin_PI. split; ring.
Qed.
Lemma cs_0 : cos (PI * 0 / 180) = 1%R /\ sin (PI * 0 / 180) = 0%R.
Proof. replace (PI * 0 / 180)%R with 0%R by field. by rewrite cos_0, sin_0. Qed.
Lemma cs_90 z : z ∈ [90; -270]%Z -> cos (PI * IZR z / 180) = 0%R /\ sin (PI * IZR z / 180) = 1%R.
Proof.
  rewrite !elem_of_cons, elem_of_nil. intros [-> |[-> |[]]].
  - replace (PI * 90 / 180)%R with (PI / 2)%R by field. by rewrite cos_PI2, sin_PI2.
  - replace (PI * (-270) / 180)%R with (- (3 * (PI / 2)))%R by field. rewrite cos_neg, sin_neg, cos_3PI2, sin_3PI2. split; ring.
Qed.
Lemma cs_270 z : z ∈ [-90; 270]%Z -> cos (PI * IZR z / 180) = 0%R /\ sin (PI * IZR z / 180) = (-1)%R.
Proof.
  rewrite !elem_of_cons, elem_of_nil. intros [-> |[-> |[]]].
  - replace (PI * (-90) / 180)%R with (- (PI / 2))%R by field. rewrite cos_neg, sin_neg, cos_PI2, sin_PI2. split; ring.
  - replace (PI * 270 / 180)%R with (3 * (PI / 2))%R by field. by rewrite cos_3PI2, sin_3PI2.
Qed.
(** all cases emit what the general formula does *)
Definition sgn (faraday : bool) (s : R) (p : p2) : R := if faraday then s else match p with Fr => s | Bk => (- s)%R end.
Lemma rotator_emits deg f (w : nd (p2 * pol) -> C_fld) t :
  emits (rotator deg f) [] w t =
  emits (rot_same (cos (radians deg)) ++ rot_cross (sgn f (sin (radians deg)))) [] w t.
Proof.
  unfold rotator. rewrite rot_arg_rad. change (fun s p => if f then s else _) with (sgn f).
  destruct (deg_in deg [0; 180; -180]%Z) eqn:H1; [|destruct (deg_in deg [90; -90; 270; -270]%Z) eqn:H2].
  - assert (emits (rot_cross (sgn f 0%R)) [] w t = 0) as Hz.
    { assert (forall p, sgn f 0 p = 0%R) as Hs by (intros p; unfold sgn; destruct f, p; rewrite ?Ropp_0; done).
      unfold emits, rot_cross. cbn [mbind list_bind app fsum fst snd]. rewrite !Hs, Ropp_0. change (C_of 0) with (0 : C_fld).
      repeat match goal with |- context [@decide ?a ?b] => destruct (@decide a b) end; ring. }
    destruct (deg_in deg [0%Z]) eqn:H0.
    + apply deg_in_true in H0 as (z & Hz0 & ->). apply elem_of_list_singleton in Hz0 as ->. destruct cs_0 as [-> ->].
      rewrite emits_app, Hz. ring.
    + apply deg_in_true in H1 as (z & Hz0 & Hr). assert (z <> 0%Z) as Hnz.
      { intros ->. unfold deg_in in H0. revert Hr H0. unfold radians. cbn. intros Hr H0.
        rewrite orb_false_r in H0. assert (Qeq_bool deg (inject_Z 0) = true); [|congruence].
        apply Qeq_bool_iff, eqR_Qeq. replace (Q2R (inject_Z 0)) with 0%R by (unfold Q2R, inject_Z; cbn; field).
        assert (PI * Q2R deg = 0)%R as Hp.
        { replace (PI * Q2R deg)%R with (180 * (PI * Q2R deg / 180))%R by field. rewrite Hr. field. }
        apply Rmult_integral in Hp as [Hp|Hp]; [|done]. exfalso. pose proof PI_RGT_0. lra. }
      rewrite Hr. destruct (cs_180 z) as [-> ->]; [set_solver|]. rewrite emits_app, Hz. ring.
  - assert (forall c, emits (rot_same 0) [] w t + c = c) as Hz.
    { intros c. unfold emits, rot_same. cbn [mbind list_bind app fsum fst snd]. change (C_of 0) with (0 : C_fld).
      repeat match goal with |- context [@decide ?a ?b] => destruct (@decide a b) end; ring. }
    destruct (deg_in deg [90; -270]%Z) eqn:H0.
    + apply deg_in_true in H0 as (z & Hz0 & ->). destruct (cs_90 z Hz0) as [-> ->]. by rewrite emits_app, Hz.
    + apply deg_in_true in H2 as (z & Hz0 & Hr). assert (z <> 90%Z /\ z <> (-270)%Z) as [Hn1 Hn2].
      { assert (forall y, y ∈ [90; -270]%Z -> z <> y) as Hy; [|split; apply Hy; set_solver].
        intros y Hy ->. assert (deg_in deg [90; -270]%Z = true); [|congruence].
        unfold deg_in. apply existsb_exists. exists y. split; [by apply elem_of_list_In|].
        apply Qeq_bool_iff, eqR_Qeq. replace (Q2R (inject_Z y)) with (IZR y) by (unfold Q2R, inject_Z; cbn; field).
        apply (Rmult_eq_reg_l (PI / 180)); [|pose proof PI_RGT_0; lra]. unfold radians in Hr. lra. }
      rewrite Hr. destruct (cs_270 z) as [-> ->]; [set_solver|]. by rewrite emits_app, Hz.
  - done.
Qed.
Lemma rotator_lem deg f (w : nd (p2 * pol) -> C_fld) :
  obeys all_ports (rotator deg f) [] w <->
  vout w Bk = rot (radians deg) (vin w Fr) /\ vout w Fr = rot (if f then radians deg else - radians deg) (vin w Bk).
Proof.
  assert (forall p, emits (rotator deg f) [] w (O (opmap p, PolS)) = cr (cos (radians deg)) * w (I (p, PolS)) - cr (sgn f (sin (radians deg)) p) * w (I (p, PolP)) /\
    emits (rotator deg f) [] w (O (opmap p, PolP)) = cr (sgn f (sin (radians deg)) p) * w (I (p, PolS)) + cr (cos (radians deg)) * w (I (p, PolP))) as He.
  { intros p. rewrite !rotator_emits, !emits_app. unfold rot_same, rot_cross, emits. cbn [mbind list_bind app fsum fst snd opmap opol].
    destruct p; cbn [opmap];
    repeat match goal with
      | |- context [@decide (?a = ?a) _] => rewrite (decide_True (P := a = a)) by reflexivity
      | |- context [@decide (?a = ?b) _] => rewrite (decide_False (P := a = b)) by discriminate
      end; change C_of with cr; rewrite ?cr_opp; split; ring. }
  assert (cos (if f then radians deg else - radians deg) = cos (radians deg) /\ sin (if f then radians deg else - radians deg) = sgn f (sin (radians deg)) Bk) as [Hc Hs].
  { destruct f; [done|]. by rewrite cos_neg, sin_neg. }
  assert (sin (radians deg) = sgn f (sin (radians deg)) Fr) as Hs' by (by destruct f).
  rewrite !rot_cr. rewrite Hc, Hs. unfold vout, vin. cbn [fst snd].
  destruct (He Fr) as [HFS HFP], (He Bk) as [HBS HBP]. cbn [opmap] in *. rewrite <- Hs' in HFS, HFP. split.
  - intros Ho. pose proof (Ho (Fr, PolS) ltac:(set_solver)) as H1. pose proof (Ho (Fr, PolP) ltac:(set_solver)) as H2.
    pose proof (Ho (Bk, PolS) ltac:(set_solver)) as H3. pose proof (Ho (Bk, PolP) ltac:(set_solver)) as H4.
    split; f_equal; congruence.
  - rewrite !pair_eq_iff. intros [[H1 H2] [H3 H4]] p Hp. unfold all_ports in Hp. rewrite !elem_of_cons, elem_of_nil in Hp. destruct Hp as [-> |[-> |[-> |[-> |[]]]]]; congruence.
Qed.
Lemma plate_lem cS cP lower (w : nd (p2 * pol) -> C_fld) :
  obeys all_ports (wave_plate cS cP lower) [] w <->
  let g (c : C_fld) : C_fld := if lower then c else C_conj c in
  vout w Bk = (g cS * w (I (Fr, PolS)), g cP * w (I (Fr, PolP))) /\ vout w Fr = (g cS * w (I (Bk, PolS)), g cP * w (I (Bk, PolP))).
Proof.
  cbv zeta. unfold vout. split.
  - intros Ho. pose proof (Ho (Fr, PolS) ltac:(set_solver)) as H1. pose proof (Ho (Fr, PolP) ltac:(set_solver)) as H2.
    pose proof (Ho (Bk, PolS) ltac:(set_solver)) as H3. pose proof (Ho (Bk, PolP) ltac:(set_solver)) as H4.
    unfold wave_plate in *. cbn [mbind list_bind app opmap] in *. revert H1 H2 H3 H4. emits_simpl. intros -> -> -> ->.
    split; f_equal; ring.
  - rewrite !pair_eq_iff. intros [[H1 H2] [H3 H4]] p Hp. unfold all_ports in Hp. rewrite !elem_of_cons, elem_of_nil in Hp.
    destruct Hp as [-> |[-> |[-> |[-> |[]]]]]; rewrite ?H1, ?H2, ?H3, ?H4; unfold wave_plate; cbn [mbind list_bind app opmap]; emits_simpl; ring.
Qed.
Lemma conj_cr x : h_conj C_herm (cr x) = cr x.
Proof. cbn. unfold C_conj, cr, C_of. cbn. f_equal. ring. Qed.
Lemma rot_power a v : vpower (rot a v) = vpower v.
Proof.
  rewrite rot_cr. unfold vpower, power. cbn [fst snd].
  rewrite (conj_sub C_herm), (h_conj_add C_fld C_herm), !(h_conj_mul C_fld C_herm), !conj_cr.
  assert (cr (cos a) * cr (cos a) + cr (sin a) * cr (sin a) = 1) as H.
  { rewrite <- !cr_mul, <- cr_add. pose proof (sin2_cos2 a) as Hsc. unfold Rsqr in Hsc. rewrite Rplus_comm, Hsc. done. }
  transitivity ((cr (cos a) * cr (cos a) + cr (sin a) * cr (sin a)) * (v.1 * h_conj C_herm v.1 + v.2 * h_conj C_herm v.2)); [ring|].
  rewrite H. ring.
Qed.
Lemma rot_linear a b x : rot a (linear b x) = linear (a + b) x.
Proof.
  rewrite rot_cr. unfold linear. change C_of with cr. cbv zeta. cbn [fst snd]. rewrite cos_plus, sin_plus, cr_sub, cr_add, !cr_mul.
  apply pair_eq_iff. split; ring.
Qed.
Lemma half_lem t a x w p : vin w p = rot t (linear a x) ->
  rot (- t) (1 * w (I (p, PolS)), - (1) * w (I (p, PolP))) = linear (- a - 2 * t) x.
Proof.
  rewrite rot_linear. intros Hv. unfold vin, linear in Hv. change C_of with cr in Hv. cbv zeta in Hv. apply pair_eq_iff in Hv as [-> ->].
  assert ((1 * (cr (cos (t + a)) * x), - (1) * (cr (sin (t + a)) * x)) = linear (- (t + a)) x) as ->.
  { unfold linear. change C_of with cr. cbv zeta. rewrite cos_neg, sin_neg, cr_opp. apply pair_eq_iff. split; ring. }
  rewrite rot_linear. f_equal. ring.
Qed.
