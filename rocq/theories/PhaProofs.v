(** Proofs of the theorems of PhaProps.v. *)
From Coq Require Import Reals List Lra Lia ZArith.
From Verif Require Import Py PhaModel PhaSpec.
Import ListNotations.
Local Open Scope R_scope.

Lemma gt_true x y : gt x y = true <-> y < x.
Proof. unfold gt. destruct (Rlt_dec y x); split; congruence || lra || reflexivity. Qed.
Lemma gt_false x y : gt x y = false <-> x <= y.
Proof. unfold gt. destruct (Rlt_dec y x); split; try congruence; intros; lra || reflexivity. Qed.
Lemma diffs_nth l k d : nth_error (diffs l) k = Some d <-> exists a b, nth_error l k = Some a /\ nth_error l (S k) = Some b /\ d = b - a.
Proof.
  revert k. induction l as [|x l IH]; intros k.
  - destruct k; simpl; split; try discriminate; intros (a & b & H & _); discriminate.
  - destruct l as [|y l].
    + simpl. split; [destruct k; discriminate|]. intros (a & b & _ & H & _). destruct k; discriminate.
    + destruct k as [|k].
      * simpl. split; [intros [= <-]; exists x, y; repeat split|]. intros (a & b & [= <-] & [= <-] & ->). reflexivity.
      * change (nth_error (diffs (x :: y :: l)) (S k)) with (nth_error (diffs (y :: l)) k). rewrite IH. reflexivity.
Qed.
Lemma ratios_nth mult u v k a f : nth_error u k = Some a -> nth_error v k = Some f -> nth_error (ratios mult u v) k = Some (mult * a / f).
Proof.
  revert v k. induction u as [|x u IH]; intros v k Hu Hv; [destruct k; discriminate|]. destruct v as [|y v]; [destruct k; discriminate|].
  destruct k as [|k]; simpl in *; [injection Hu as ->; injection Hv as ->; reflexivity|]. apply IH; assumption.
Qed.
Lemma wrap_small x y : -2 * PI <= x <= 2 * PI -> - PI < y < PI -> same_direction x y -> wrap x = y.
Proof.
  intros Hx Hy [k ->]. pose proof PI_RGT_0. assert (k = -1 \/ k = 0 \/ k = 1)%Z as Hk.
  { assert (-2 < IZR k < 2) as [G1 G2]. { split; apply Rmult_lt_reg_l with (2 * PI); lra. } apply lt_IZR in G1. apply lt_IZR in G2. lia. }
  unfold wrap. destruct Hk as [-> | [-> | ->]].
  - replace (gt (y + 2 * PI * -1) (1 * PI)) with false by (symmetry; apply gt_false; lra).
    replace (gt (- (1) * PI) (y + 2 * PI * -1)) with true by (symmetry; apply gt_true; lra). lra.
  - replace (gt (y + 2 * PI * 0) (1 * PI)) with false by (symmetry; apply gt_false; lra).
    replace (gt (- (1) * PI) (y + 2 * PI * 0)) with false by (symmetry; apply gt_false; lra). lra.
  - replace (gt (y + 2 * PI * 1) (1 * PI)) with true by (symmetry; apply gt_true; lra).
    replace (gt (- (1) * PI) (y + 2 * PI * 1 - 2 * PI)) with false by (symmetry; apply gt_false; lra). lra.
Qed.
Lemma C100_delay_lem F angles phases mult k p p' f f' : Forall2 principal angles phases ->
  nth_error phases k = Some p -> nth_error phases (S k) = Some p' -> nth_error F k = Some f -> nth_error F (S k) = Some f' -> Rabs (p' - p) < PI ->
  nth_error (fst (group_delay F angles mult)) k = Some f' /\ nth_error (snd (group_delay F angles mult)) k = Some (mult * (p' - p) / (f' - f)).
Proof.
  intros HF Hp Hp' Hf Hf' Hs. unfold group_delay. cbn [fst snd]. split; [destruct F as [|x F]; [discriminate|exact Hf']|].
  assert (forall j q, nth_error phases j = Some q -> exists a, nth_error angles j = Some a /\ principal a q) as K.
  { clear -HF. induction HF as [|a q l l' H HF IH]; intros [|j] r E; try discriminate; simpl in *; [injection E as <-; exists a; auto|apply IH, E]. }
  destruct (K _ _ Hp) as (a & Ha & [Ba [n Ea]]). destruct (K _ _ Hp') as (a' & Ha' & [Ba' [n' Ea']]).
  apply ratios_nth; [|apply diffs_nth; exists f, f'; auto].
  assert (nth_error (diffs angles) k = Some (a' - a)) as Hd by (apply diffs_nth; exists a, a'; auto).
  rewrite (map_nth_error wrap _ _ Hd). f_equal. apply wrap_small; [lra|apply Rabs_def2 in Hs; lra|].
  exists (n' - n)%Z. rewrite minus_IZR. lra.
Qed.
Lemma floor_bounds x : IZR (Int_part x) <= x < IZR (Int_part x) + 1.
Proof. pose proof (base_Int_part x). lra. Qed.
Lemma pymod_spec x m : 0 < m -> 0 <= pymod x m < m /\ exists k : Z, pymod x m = x - m * IZR k.
Proof.
  intros Hm. unfold pymod. split; [|exists (Int_part (x / m)); reflexivity]. pose proof (floor_bounds (x / m)) as [H1 H2].
  apply (Rmult_le_compat_l m) in H1; [|lra]. apply (Rmult_lt_compat_l m) in H2; [|lra]. replace (m * (x / m)) with x in * by (field; lra). lra.
Qed.
Lemma pymod_only x y m : 0 < m -> 0 <= y < m -> (exists k : Z, y = x - m * IZR k) -> pymod x m = y.
Proof.
  intros Hm Hy [k ->]. destruct (pymod_spec x m Hm) as [H [k' E]]. rewrite E in *. assert (k = k') as ->; [|reflexivity].
  assert (-1 < IZR (k - k') < 1) as [G1 G2]. { rewrite minus_IZR. split; apply Rmult_lt_reg_l with m; lra. }
  apply lt_IZR in G1. apply lt_IZR in G2. lia.
Qed.
Lemma turn_nat x n : (cos (x + PI * INR n) = cos x /\ sin (x + PI * INR n) = sin x) \/ (cos (x + PI * INR n) = - cos x /\ sin (x + PI * INR n) = - sin x).
Proof.
  induction n as [|n IH]; [left; simpl; rewrite Rmult_0_r, Rplus_0_r; auto|]. rewrite S_INR.
  replace (x + PI * (INR n + 1)) with (x + PI * INR n + PI) by ring. rewrite neg_cos, neg_sin.
  destruct IH as [[-> ->]|[-> ->]]; [right|left]; split; lra.
Qed.
Lemma turn x k : (cos (x + PI * IZR k) = cos x /\ sin (x + PI * IZR k) = sin x) \/ (cos (x + PI * IZR k) = - cos x /\ sin (x + PI * IZR k) = - sin x).
Proof.
  destruct (Z.le_ge_cases 0 k) as [H|H].
  - rewrite <- (Z2Nat.id k H), <- INR_IZR_INZ. apply turn_nat.
  - pose proof (turn_nat (x + PI * IZR k) (Z.to_nat (- k))) as K. rewrite INR_IZR_INZ, Z2Nat.id, opp_IZR in K by lia.
    replace (x + PI * IZR k + PI * - IZR k) with x in K by ring. destruct K as [[-> ->]|[E1 E2]]; [left; auto|right; split; lra].
Qed.
Lemma C100_signed_lem r a deg v mag ang : v = (r * cos a, r * sin a) -> mag_phase_signed v a false = (mag, ang) ->
  v = (mag * cos ang, mag * sin ang) /\ - PI / 4 <= ang < 3 * PI / 4 /\ (mag = r \/ mag = - r) /\
  mag_phase_signed v a deg = (mag, if deg then 180 / PI * ang else ang).
Proof.
  intros -> H. pose proof PI_RGT_0 as HP. unfold mag_phase_signed in *. cbn [fst snd] in *. destruct (pymod_spec (a + PI * 9 / 4) PI HP) as [Hb [k E]].
  set (q := pymod (a + PI * 9 / 4) PI) in *. injection H as Hm Ha. rewrite Ha in *.
  assert (a = ang + PI * IZR (k - 2)) as Ea by (rewrite minus_IZR; lra). pose proof (turn ang (k - 2)) as K. rewrite <- Ea in K.
  rewrite cos_neg, sin_neg in Hm. pose proof (sin2_cos2 ang) as Hsc. unfold Rsqr in Hsc.
  assert (mag = r /\ cos a = cos ang /\ sin a = sin ang \/ mag = - r /\ cos a = - cos ang /\ sin a = - sin ang) as Hr.
  { destruct K as [[E1 E2]|[E1 E2]]; rewrite E1, E2 in *; [left|right]; (split; [|auto]); rewrite <- Hm.
    - transitivity (r * (sin ang * sin ang + cos ang * cos ang)); [ring|rewrite Hsc; ring].
    - transitivity (- r * (sin ang * sin ang + cos ang * cos ang)); [ring|rewrite Hsc; ring]. }
  split; [destruct Hr as [(-> & -> & ->)|(-> & -> & ->)]; f_equal; ring|]. split; [lra|]. split; [tauto|].
  rewrite cos_neg, sin_neg, Hm. reflexivity.
Qed.
Lemma C100_opposite_lem v v' a a' mag mag' ang ang' : (exists k : Z, a' = a + PI * (2 * IZR k + 1)) -> v' = (- fst v, - snd v) ->
  mag_phase_signed v a false = (mag, ang) -> mag_phase_signed v' a' false = (mag', ang') -> ang' = ang /\ mag' = - mag.
Proof.
  intros [k Ea] -> H H'. pose proof PI_RGT_0 as HP. unfold mag_phase_signed in *. cbn [fst snd] in *.
  assert (pymod (a' + PI * 9 / 4) PI = pymod (a + PI * 9 / 4) PI) as E.
  { destruct (pymod_spec (a + PI * 9 / 4) PI HP) as [Hb [j Ej]]. apply pymod_only; [exact HP|exact Hb|]. exists (j + 2 * k + 1)%Z. rewrite !plus_IZR, mult_IZR. lra. }
  rewrite E in H'. injection H as Hm Ha. injection H' as Hm' Ha'. rewrite Ha in *. subst ang'. split; [reflexivity|]. lra.
Qed.
Lemma filter_nil (f : R -> bool) l : filter f l = [] <-> forall x, In x l -> f x = false.
Proof.
  induction l as [|x l IH]; simpl; [tauto|]. destruct (f x) eqn:E; split; try discriminate.
  - intros H. rewrite (H x (or_introl eq_refl)) in E. discriminate.
  - intros H y [<-|Hy]; [exact E|]. apply IH; assumption.
  - intros H. apply IH. auto.
Qed.
Lemma no_jump angles sep : (filter (fun d => gt d (Rabs sep)) (diffs angles) = [] /\ filter (fun d => gt (- Rabs sep) d) (diffs angles) = []) <-> steps_within (Rabs sep) angles.
Proof.
  rewrite !filter_nil. split.
  - intros [H1 H2] k a b Ha Hb. assert (In (b - a) (diffs angles)) as Hin by (apply nth_error_In with k, diffs_nth; exists a, b; auto).
    pose proof (proj1 (gt_false _ _) (H1 _ Hin)) as G1. pose proof (proj1 (gt_false _ _) (H2 _ Hin)) as G2. apply Rabs_le. lra.
  - intros H. split; intros d Hd; apply In_nth_error in Hd as [k Hk]; apply diffs_nth in Hk as (a & b & Ha & Hb & ->); specialize (H _ _ _ Ha Hb); apply gt_false; revert H; unfold Rabs; destruct (Rcase_abs (b - a)); lra.
Qed.
Lemma C100_raises_lem angles sep deg : (exists out, continuous_phase angles sep deg = Ok out) <-> steps_within (Rabs sep) angles.
Proof.
  rewrite <- no_jump. unfold continuous_phase.
  destruct (filter _ (diffs angles)) as [|u l]; [destruct (filter _ (diffs angles)) as [|w l']|]; split; try (intros [out H]; discriminate); try (intros [H1 H2]; discriminate); auto.
  intros _. eexists. reflexivity.
Qed.
Lemma average_shift l c : l <> [] -> average (map (fun a => a + c) l) = average l + c.
Proof.
  intros H. unfold average. rewrite map_length. assert (fold_right Rplus 0 (map (fun a => a + c) l) = fold_right Rplus 0 l + INR (length l) * c) as ->.
  { clear H. induction l as [|x l IH]; [simpl; ring|]. cbn [map fold_right length]. rewrite IH, S_INR. ring. }
  assert (INR (length l) <> 0). { apply not_0_INR. destruct l; [congruence|discriminate]. } field. assumption.
Qed.
Lemma C100_smooth_lem angles sep out : angles <> [] -> (forall a, In a angles -> - PI <= a) -> continuous_phase angles sep false = Ok out ->
  (exists c, (c = 0 \/ c = 2 * PI) /\ out = map (fun a => a + c) angles) /\ steps_within (Rabs sep) out /\ - PI / 4 <= average out /\
  continuous_phase angles sep true = Ok (map (fun a => 180 * a / PI) out).
Proof.
  intros Hne Hlo H. pose proof PI_RGT_0 as HP. assert (steps_within (Rabs sep) angles) as Hs by (apply (C100_raises_lem angles sep false); exists out; exact H).
  assert (- PI <= average angles) as Hav.
  { unfold average. assert (0 < INR (length angles)) as Hl by (apply lt_0_INR; destruct angles; [congruence|simpl; lia]).
    apply Rmult_le_reg_r with (INR (length angles)); [exact Hl|]. unfold Rdiv. rewrite Rmult_assoc, Rinv_l, Rmult_1_r by lra. clear -Hlo. 
    induction angles as [|x l IH]; [simpl; lra|]. cbn [fold_right length]. rewrite S_INR. specialize (IH (fun a Ha => Hlo a (or_intror Ha))). pose proof (Hlo x (or_introl eq_refl)). lra. }
  pose proof (proj2 (no_jump angles sep) Hs) as [N1 N2].
  unfold continuous_phase in *. rewrite N1, N2 in *. injection H as Eo. rewrite Eo.
  assert (exists c, (c = 0 \/ c = 2 * PI) /\ out = map (fun a => a + c) angles /\ - PI / 4 <= average out) as (c & Hc & Ho & Hav').
  { destruct (gt (- PI / 4) (average angles)) eqn:G; subst out.
    - exists (2 * PI). split; [auto|]. split; [apply map_ext; intros; ring|]. rewrite average_shift by exact Hne. lra.
    - apply gt_false in G. exists 0. split; [auto|]. split; [|exact G]. rewrite <- (map_id angles) at 1. apply map_ext. intros. ring. }
  split; [exists c; auto|]. split; [|split; [exact Hav'|]].
  - intros k a b Ha Hb. rewrite Ho in Ha, Hb. rewrite nth_error_map in Ha, Hb.
    destruct (nth_error angles k) as [x|] eqn:E1; [|discriminate]. destruct (nth_error angles (S k)) as [y|] eqn:E2; [|discriminate].
    simpl in Ha, Hb. injection Ha as <-. injection Hb as <-. replace (y + c - (x + c)) with (y - x) by ring. exact (Hs _ _ _ E1 E2).
  - f_equal. apply map_ext. intros a. field. lra.
Qed.
Lemma C100_pure_delay_lem F angles mult tau theta0 k f f' : Forall2 principal angles (map (fun f => theta0 - 2 * PI * f * tau) F) ->
  nth_error F k = Some f -> nth_error F (S k) = Some f' -> f' <> f -> Rabs ((f' - f) * tau) < / 2 ->
  nth_error (snd (group_delay F angles mult)) k = Some (- 2 * PI * mult * tau).
Proof.
  intros HF Hf Hf' Hne Hs. pose proof PI_RGT_0 as HP.
  pose proof (map_nth_error (fun f => theta0 - 2 * PI * f * tau) _ _ Hf) as Hp. pose proof (map_nth_error (fun f => theta0 - 2 * PI * f * tau) _ _ Hf') as Hp'. cbv beta in Hp, Hp'.
  destruct (C100_delay_lem F angles _ mult k _ _ f f' HF Hp Hp' Hf Hf') as [_ ->].
  - replace (theta0 - 2 * PI * f' * tau - (theta0 - 2 * PI * f * tau)) with (- (2 * PI) * ((f' - f) * tau)) by ring.
    rewrite Rabs_mult, (Rabs_left (- (2 * PI))) by lra. apply Rmult_lt_reg_r with (/ (2 * PI)); [apply Rinv_0_lt_compat; lra|].
    replace (- - (2 * PI) * Rabs ((f' - f) * tau) * / (2 * PI)) with (Rabs ((f' - f) * tau)) by (field; lra). replace (PI * / (2 * PI)) with (/ 2) by (field; lra). exact Hs.
  - f_equal. field. lra.
Qed.
(** a phase that turns through half a turn *)
Lemma C100_turning_refuted_lem : exists phases angles, Forall2 principal angles phases /\ steps_within (PI / 4) phases /\
  forall sep deg, Rabs sep <= 101 / 100 * PI -> continuous_phase angles sep deg = Err IndexError.
Proof.
  pose proof PI_RGT_0 as HP. exists [7 * PI / 8; 9 * PI / 8], [7 * PI / 8; - (7 * PI / 8)]. split; [|split].
  - constructor; [split; [lra|exists 0%Z; lra]|]. constructor; [split; [lra|exists (-1)%Z; lra]|constructor].
  - intros [|[|k]] a b Ha Hb; simpl in *; [|discriminate|destruct k; discriminate]. injection Ha as <-. injection Hb as <-. apply Rabs_le. lra.
  - intros sep deg Hs. destruct (continuous_phase _ sep deg) as [out|e] eqn:E.
    + exfalso. assert (exists out, continuous_phase [7 * PI / 8; - (7 * PI / 8)] sep deg = Ok out) as K by (exists out; exact E).
      apply C100_raises_lem in K. specialize (K 0%nat _ _ eq_refl eq_refl). rewrite Rabs_left in K by lra. lra.
    + f_equal. revert E. unfold continuous_phase. destruct (filter _ _); [destruct (filter _ _)|]; congruence.
Qed.
Lemma C100_example_lem : exists (F angles phases : list R) (p p' f f' : R) (k : nat), Forall2 principal angles phases /\ angles <> phases /\
  nth_error phases k = Some p /\ nth_error phases (S k) = Some p' /\ nth_error F k = Some f /\ nth_error F (S k) = Some f' /\ Rabs (p' - p) < PI /\ f' <> f.
Proof.
  pose proof PI_RGT_0 as HP. exists [1; 2], [7 * PI / 8; - (7 * PI / 8)], [7 * PI / 8; 9 * PI / 8], (7 * PI / 8), (9 * PI / 8), 1, 2, 0%nat.
  split; [constructor; [split; [lra|exists 0%Z; lra]|]; constructor; [split; [lra|exists (-1)%Z; lra]|constructor]|].
  split; [intros [= E]; lra|]. repeat split; [|lra]. rewrite Rabs_right; lra.
Qed.
Lemma C100_example_delay_lem : exists (F angles : list R) (tau theta0 f f' : R), tau <> 0 /\ Forall2 principal angles (map (fun f => theta0 - 2 * PI * f * tau) F) /\
  nth_error F 0 = Some f /\ nth_error F 1 = Some f' /\ f' <> f /\ Rabs ((f' - f) * tau) < / 2.
Proof.
  pose proof PI_RGT_0 as HP. exists [1; 2], [- (PI / 2); PI], (/ 4), 0, 1, 2. split; [lra|].
  split; [constructor; [split; [lra|exists 0%Z; lra]|]; constructor; [split; [lra|exists 1%Z; lra]|constructor]|]. repeat split; [lra|]. rewrite Rabs_right; lra.
Qed.
Lemma C100_example_signed_lem : exists r a v mag ang, r > 0 /\ v = (r * cos a, r * sin a) /\ mag_phase_signed v a false = (mag, ang).
Proof. exists 1, PI, (1 * cos PI, 1 * sin PI). eexists. eexists. split; [lra|]. split; reflexivity. Qed.
Lemma C100_example_smooth_lem : exists (angles out : list R), (2 < length angles)%nat /\ (forall a, In a angles -> - PI <= a) /\ continuous_phase angles PI false = Ok out /\ out <> angles.
Proof.
  pose proof PI_RGT_0 as HP. exists [- PI / 2; - PI / 2; - PI]. assert (steps_within (Rabs PI) [- PI / 2; - PI / 2; - PI]) as Hs.
  { rewrite (Rabs_right PI) by lra. intros [|[|[|k]]] a b Ha Hb; simpl in *; try discriminate; try (destruct k; discriminate); injection Ha as <-; injection Hb as <-; apply Rabs_le; lra. }
  destruct (proj2 (C100_raises_lem _ _ false) Hs) as [out E]. exists out. split; [simpl; lia|]. split; [intros a [<-|[<-|[<-|[]]]]; lra|]. split; [exact E|].
  assert (- PI / 4 <= average out) as Hav.
  { eapply (C100_smooth_lem [- PI / 2; - PI / 2; - PI] PI out); [discriminate|intros a [<-|[<-|[<-|[]]]]; lra|exact E]. }
  intros ->. unfold average in Hav. simpl in Hav. lra.
Qed.
