(** Theorems about phases and delays of sampled data.  C100. *)
From Coq Require Import Reals List.
From Verif Require Import Py PhaModel PhaSpec PhaProofs.
Import ListNotations.
Local Open Scope R_scope.

Theorem C100_delay F angles phases mult k p p' f f' : Forall2 principal angles phases ->
  nth_error phases k = Some p -> nth_error phases (S k) = Some p' -> nth_error F k = Some f -> nth_error F (S k) = Some f' -> Rabs (p' - p) < PI ->
  nth_error (fst (group_delay F angles mult)) k = Some f' /\ nth_error (snd (group_delay F angles mult)) k = Some (mult * (p' - p) / (f' - f)).
Proof. eapply C100_delay_lem. Qed.
Theorem C100_pure_delay F angles mult tau theta0 k f f' : Forall2 principal angles (map (fun f => theta0 - 2 * PI * f * tau) F) ->
  nth_error F k = Some f -> nth_error F (S k) = Some f' -> f' <> f -> Rabs ((f' - f) * tau) < / 2 ->
  nth_error (snd (group_delay F angles mult)) k = Some (- 2 * PI * mult * tau).
Proof. eapply C100_pure_delay_lem. Qed.
Theorem C100_signed r a deg v mag ang : v = (r * cos a, r * sin a) -> mag_phase_signed v a false = (mag, ang) ->
  v = (mag * cos ang, mag * sin ang) /\ - PI / 4 <= ang < 3 * PI / 4 /\ (mag = r \/ mag = - r) /\
  mag_phase_signed v a deg = (mag, if deg then 180 / PI * ang else ang).
Proof. eapply C100_signed_lem. Qed.
Theorem C100_opposite v v' a a' mag mag' ang ang' : (exists k : Z, a' = a + PI * (2 * IZR k + 1)) -> v' = (- fst v, - snd v) ->
  mag_phase_signed v a false = (mag, ang) -> mag_phase_signed v' a' false = (mag', ang') -> ang' = ang /\ mag' = - mag.
Proof. eapply C100_opposite_lem. Qed.
Theorem C100_smooth angles sep out : angles <> [] -> (forall a, In a angles -> - PI <= a) -> continuous_phase angles sep false = Ok out ->
  (exists c, (c = 0 \/ c = 2 * PI) /\ out = map (fun a => a + c) angles) /\ steps_within (Rabs sep) out /\ - PI / 4 <= mean out /\
  continuous_phase angles sep true = Ok (map (fun a => 180 * a / PI) out).
Proof. eapply C100_smooth_lem. Qed.
Theorem C100_raises angles sep deg : (exists out, continuous_phase angles sep deg = Ok out) <-> steps_within (Rabs sep) angles.
Proof. eapply C100_raises_lem. Qed.
Theorem C100_turning_refuted : exists phases angles, Forall2 principal angles phases /\ steps_within (PI / 4) phases /\
  forall sep deg, Rabs sep <= 101 / 100 * PI -> continuous_phase angles sep deg = Err IndexError.
Proof. eapply C100_turning_refuted_lem. Qed.
Example C100_example : exists (F angles phases : list R) (p p' f f' : R) (k : nat), Forall2 principal angles phases /\ angles <> phases /\
  nth_error phases k = Some p /\ nth_error phases (S k) = Some p' /\ nth_error F k = Some f /\ nth_error F (S k) = Some f' /\ Rabs (p' - p) < PI /\ f' <> f.
Proof. eapply C100_example_lem. Qed.
Example C100_example_delay : exists (F angles : list R) (tau theta0 f f' : R), tau <> 0 /\ Forall2 principal angles (map (fun f => theta0 - 2 * PI * f * tau) F) /\
  nth_error F 0 = Some f /\ nth_error F 1 = Some f' /\ f' <> f /\ Rabs ((f' - f) * tau) < / 2.
Proof. eapply C100_example_delay_lem. Qed.
Example C100_example_signed : exists r a v mag ang, r > 0 /\ v = (r * cos a, r * sin a) /\ mag_phase_signed v a false = (mag, ang).
Proof. eapply C100_example_signed_lem. Qed.
Example C100_example_smooth : exists (angles out : list R), (2 < length angles)%nat /\ (forall a, In a angles -> - PI <= a) /\ continuous_phase angles PI false = Ok out /\ out <> angles.
Proof. eapply C100_example_smooth_lem. Qed.
Print Assumptions C100_delay.
Print Assumptions C100_pure_delay.
Print Assumptions C100_signed.
Print Assumptions C100_opposite.
Print Assumptions C100_smooth.
Print Assumptions C100_raises.
Print Assumptions C100_turning_refuted.
