(** C79: levers; C80: strings. *)
From Coq Require Import Reals Lra.
From stdpp Require Import base tactics list numbers.
From Verif Require Import Py Fld Herm ElecModel ElecSpec LevModel LevSpec LevProofs LevProofs2 LevFinal SigModel.
Local Open Scope fld_scope.

(** C79: the one-dimensional lever: the displacements at A and B differ by the arm times the
    angle, the forces cancel, the torque is the arm times the force at B *)
Theorem C79_lever (K : fld) (d Z0 : K) (w : nd pABL -> K) : Z0 <> 0 -> 1 + 1 <> (0 : K) -> d * d + (1 + 1) <> 0 ->
  (obeys [LA; LB; LL] (lever1 d) [] w <->
   volt w LA - volt w LB = d * volt w LL /\ curr Z0 w LA + curr Z0 w LB = 0 /\ curr Z0 w LL + d * curr Z0 w LA = 0).
Proof. exact (lever1_lem d Z0 w). Qed.
Print Assumptions C79_lever.
Example C79_lever_meets : exists (d Z0 : Qc_fld) (w : nd pABL -> Qc_fld), Z0 <> 0 /\ 1 + 1 <> (0 : Qc_fld) /\ d * d + (1 + 1) <> 0 /\
  obeys [LA; LB; LL] (lever1 d) [] w /\ curr Z0 w LL <> 0 /\ volt w LL <> 0.
Proof.
  (* arm 1, waves 3 into A only: 1, 2, 2 come out *)
  set (q := fun n : Z => Qcanon.Q2Qc (QArith_base.inject_Z n) : Qc_fld).
  exists (q 1%Z), (q 1%Z), (fun n => match n with I LA => q 3%Z | O LA => q 1%Z | O LB => q 2%Z | O LL => q 2%Z | _ => 0 end).
  split_and!; try (intros E; vm_compute in E; discriminate E).
  intros p _. destruct p; vm_compute; reflexivity.
Qed.
(** the three-dimensional one: a rigid rod of the given displacement, whatever it is *)
Theorem C79_rod (dv : axis -> R) (Z0 : C_fld) (w : nd port3 -> C_fld) : (exists i, dv i <> 0%R) -> Z0 <> 0 ->
  (obeys all3 (xyz_moment_driver dv) [] w <-> rigid_rod (fun i => cre (dv i)) Z0 w).
Proof. exact (C79_rod_lem dv Z0 w). Qed.
Print Assumptions C79_rod.
(** neither takes up energy *)
Theorem C79_lever_lossless (K : fld) (h : herm K) (d : K) (w : nd pABL -> K) :
  1 + 1 <> (0 : K) -> d * d + (1 + 1) <> 0 -> h_conj h d = d ->
  obeys [LA; LB; LL] (lever1 d) [] w -> taken h w LA + taken h w LB + taken h w LL = 0.
Proof. exact (lever1_lossless_lem h d w). Qed.
Print Assumptions C79_lever_lossless.
Theorem C79_rod_lossless (dv : axis -> R) (w : nd port3 -> C_fld) : (exists i, dv i <> 0%R) ->
  obeys all3 (xyz_moment_driver dv) [] w -> fsum (taken C_herm w) all3 = 0.
Proof. exact (C79_rod_lossless_lem dv w). Qed.
Print Assumptions C79_rod_lossless.
(** a mass m at A while B is held: the torque at L is that of the inertia tensor
    m (|d|^2 - d d^T) *)
Theorem C79_inertia (dv : axis -> R) (Z0 s m : C_fld) (w : nd port3 -> C_fld) : (exists i, dv i <> 0%R) -> Z0 <> 0 ->
  obeys all3 (xyz_moment_driver dv) [] w ->
  (forall i, disp w LB i = 0) -> (forall i, force Z0 w LA i = - (m * (s * (s * disp w LA i)))) ->
  let d i := cre (dv i) in
  forall i, force Z0 w LL i = m * (dot d d * (s * (s * disp w LL i)) - dot d (disp w LL) * (s * (s * d i))).
Proof. exact (C79_inertia_lem dv Z0 s m w). Qed.
Print Assumptions C79_inertia.
(** a rod along z of length 1, B held, turning about x: A moves along y *)
Definition rod_z (i : axis) : R := match i with AxZ => 1%R | _ => 0%R end.
Definition turn_x : nd port3 -> C_fld := fun n =>
  match n with
  | O (LA, AxY) | I (LL, AxX) => 1
  | I (LB, AxY) => cre (/ 2) | O (LB, AxY) => cre (- / 2)
  | _ => 0
  end.
Example C79_rod_meets : (exists i, rod_z i <> 0%R) /\ obeys all3 (xyz_moment_driver rod_z) [] turn_x /\
  (forall i, disp turn_x LB i = 0) /\ (forall i, force 1 turn_x LA i = - (1 * (1 * (1 * disp turn_x LA i)))) /\
  disp turn_x LL AxX = 1 /\ force 1 turn_x LL AxX = 1.
Proof.
  assert (exists i, rod_z i <> 0%R) as Hn by (exists AxZ; simpl; lra).
  split; [done|]. split.
  - apply (C79_rod _ 1); [done|intros [= E]; lra|]. intros i.
    unfold disp, force, volt, curr, rod_z, cross. destruct i; simpl; split_and!; apply injective_projections; simpl; unfold C_inv, C_sq; simpl; field.
  - unfold disp, force, volt, curr.
    split_and!; try (intros i; destruct i); apply injective_projections; simpl; unfold C_inv, C_sq; simpl; field.
Qed.
(** the driver with one axis only cannot be used: as soon as A, or the y or z port of B, carries
    any key, setting up the couplings raises *)
Theorem C79_moment_driver_refuted (keys : pMD -> nat) :
  (0 < keys MA \/ 0 < keys (MB AxY) \/ 0 < keys (MB AxZ))%nat -> moment_driver keys = Err IndexError.
Proof. exact (moment_driver_lem keys). Qed.
Print Assumptions C79_moment_driver_refuted.

(** C80: a string is a line whose waves gain [ph] on the way (exp(-s l/c), times the loss)... *)
Theorem C80_line (K : fld) (Z0 s tiny mob ph xA fA xB fB : K) :
  Z0 <> 0 -> 1 + 1 <> (0 : K) -> ph <> 0 -> s + tiny * Z0 <> 0 -> s * mob + tiny <> 0 -> s + tiny * Z0 + (s * mob + tiny) * Z0 <> 0 ->
  ((exists wA wC wB, string_obeys Z0 s tiny mob ph wA wC wB /\
      volt wA AA = xA /\ curr Z0 wA AA = fA /\ volt wB AA = xB /\ curr Z0 wB AA = fB) <->
   line_law ((s * mob + tiny) / (s + tiny * Z0)) ph xA fA xB fB).
Proof. exact (C80_line_lem Z0 s tiny mob ph xA fA xB fB). Qed.
Print Assumptions C80_line.
(** ... but its characteristic admittance is (about) the mobility where it should be the
    mobility times s (force is tension^.5 density^.5 times velocity): already the start of an
    endless string, from which nothing comes back, is wrong, however small [tiny] is *)
Theorem C80_string_refuted (tiny : R) : (0 < tiny)%R -> exists (s mob : C_fld) (w : nd pAB -> C_fld),
  obeys [AA; BB] (zconverter 1 s (cre tiny) mob) [] w /\ w (I BB) = 0 /\ curr 1 w AA <> mob * (s * volt w AA).
Proof. exact (C80_string_refuted_lem tiny). Qed.
Print Assumptions C80_string_refuted.
(** ... and at frequency 0 it is a rigid link, not a spring *)
Theorem C80_dc (K : fld) (Z0 tiny mob xA fA xB fB : K) : Z0 <> 0 -> 1 + 1 <> (0 : K) -> tiny <> 0 -> 1 + Z0 <> 0 ->
  ((exists wA wC wB, string_obeys Z0 0 tiny mob 1 wA wC wB /\
      volt wA AA = xA /\ curr Z0 wA AA = fA /\ volt wB AA = xB /\ curr Z0 wB AA = fB) <->
   xA = xB /\ fA + fB = 0).
Proof. exact (C80_dc_lem Z0 tiny mob xA fA xB fB). Qed.
Print Assumptions C80_dc.
Example C80_meets : let q := fun n : Z => Qcanon.Q2Qc (QArith_base.inject_Z n) : Qc_fld in
  exists Z0 s tiny mob ph xA fA xB fB : Qc_fld,
  Z0 <> 0 /\ ph <> 0 /\ s + tiny * Z0 <> 0 /\ s * mob + tiny <> 0 /\ s + tiny * Z0 + (s * mob + tiny) * Z0 <> 0 /\ 1 + Z0 <> 0 /\
  line_law ((s * mob + tiny) / (s + tiny * Z0)) ph xA fA xB fB /\ fA <> 0 /\ xB <> 0.
Proof.
  intros q. exists (q 1%Z), (q 2%Z), (q 1%Z), (q 1%Z), (q 2%Z).
  (* a = b = 1: xA = 1 + 2, fA = 1 - 2, xB = 2 + 1, fB = 1 - 2, and Y = 1 *)
  exists (q 3%Z), (q (-1)%Z), (q 3%Z), (q (-1)%Z).
  split_and!; try (intros E; vm_compute in E; discriminate E); vm_decide.
Qed.
