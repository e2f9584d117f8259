(** C93: the polarizing beamsplitter and the isolator made of two of them. *)
From stdpp Require Import base tactics list numbers.
From Coq Require Import QArith Qreals Reals String.
From Verif Require Import Fld Herm ElecModel ElecSpec OptModel OptSpec PbsModel PbsSpec PbsFinal.
Local Open Scope fld_scope.

(** light at one port goes, polarization by polarization, through and beside in the shares given, and
    nowhere else *)
Theorem C93_splits {K : fld} (h : herm K) pass (a : pbs_args (K := K)) lower w p l :
  pbs_ok h a -> obeys iso_ports (pbs h pass a lower) [] w -> dark w -> lit_only w p ->
  power h (w (O (Pt (through p), l))) = passed pass l a * power h (w (I (Pt p, l))) /\
  power h (w (O (Pt (beside p), l))) = reflected pass l a * power h (w (I (Pt p, l))) /\
  w (O (Pt p, l)) = 0 /\ w (O (Pt (through (beside p)), l)) = 0.
Proof. exact (C93_splits_lem h pass a lower w p l). Qed.
Print Assumptions C93_splits.
(** with any light, all that is lost is the sum of the two losses, for each polarization *)
Theorem C93_power {K : fld} (h : herm K) pass (a : pbs_args (K := K)) lower w l :
  pbs_ok h a -> obeys iso_ports (pbs h pass a lower) [] w -> dark w ->
  fsum (fun p => power h (w (O (Pt p, l)))) four_ports = (1 - (select_loss a + reject_loss a)) * fsum (fun p => power h (w (I (Pt p, l)))) four_ports.
Proof. exact (C93_power_lem h pass a lower w l). Qed.
Print Assumptions C93_power.
(** as it is by default it separates the polarizations completely *)
Theorem C93_ideal {K : fld} (h : herm K) pass lower (w : nd (mport * pol) -> K) :
  obeys iso_ports (pbs h pass pbs_default lower) [] w <->
  forall p l, w (O (Pt p, l)) = if decide (l = pass) then w (I (Pt (through p), l)) else side p (w (I (Pt (beside p), l))).
Proof. exact (C93_ideal_lem h pass lower w). Qed.
Print Assumptions C93_ideal.
Example C93_splits_case : pbs_ok C_herm ex_pbs.
Proof. exact ex_pbs_ok. Qed.

(** with losses and without defects the amplitudes are roots of negative numbers, for both polarizations *)
Theorem C93_loss_refuted pass lower : let a := ex_lossy in
  selection_defect a = 0 /\ rejection_defect a = 0 /\ select_loss a = C_of (1 / 8) /\ reject_loss a = C_of (1 / 4) /\
  (exists g : C_fld, (I (Pt FrA, pass), O (Pt FrB, pass), h_sqrt C_herm (C_of (- (1 / 4)) : C_fld) * g) ∈ pbs C_herm pass a lower) /\
  (exists g : C_fld, (I (Pt FrA, opol pass), O (Pt BkA, opol pass), h_sqrt C_herm (C_of (- (1 / 8)) : C_fld) * g) ∈ pbs C_herm pass a lower).
Proof. exact (C93_loss_refuted_lem pass lower). Qed.
Print Assumptions C93_loss_refuted.

(** the names of the polarizations and their opposites *)
Theorem C93_names (s : string) (l : pol) : pass_of s = Some l <-> exists s', polarization_opposite s = Some s' /\ pass_of s' = Some (opol l).
Proof. exact (C93_names_lem s l). Qed.
Print Assumptions C93_names.
Example C93_names_case : pass_of "p" = Some PolP.
Proof. reflexivity. Qed.

(** two beamsplitters with a Faraday rotator and a half-wave plate between them: what passes forward, and
    back, for any rotation *)
Theorem C93_forward deg from to lower wi wf w1 w2 w3 wo :
  isolator deg from to lower wi wf w1 w2 w3 wo -> wi (I (Pt BkB, opol from)) = 0 ->
  wo (O (Pt BkA, from)) = psign from * C_of (cos (PI / 4 - radians deg)) * wi (I (Pt FrA, from)).
Proof. exact (C93_forward_lem deg from to lower wi wf w1 w2 w3 wo). Qed.
Print Assumptions C93_forward.
Theorem C93_backward deg from to lower wi wf w1 w2 w3 wo :
  isolator deg from to lower wi wf w1 w2 w3 wo -> wo (I (Pt FrB, opol from)) = 0 ->
  wi (O (Pt FrA, from)) = psign from * C_of (cos (PI / 4 + radians deg)) * wo (I (Pt BkA, from)).
Proof. exact (C93_backward_lem deg from to lower wi wf w1 w2 w3 wo). Qed.
Print Assumptions C93_backward.
(** turned by 45 degrees all the light passes forward and none back *)
Theorem C93_isolates from to lower wi wf w1 w2 w3 wo :
  isolator 45 from to lower wi wf w1 w2 w3 wo ->
  (wi (I (Pt BkB, opol from)) = 0 -> power C_herm (wo (O (Pt BkA, from))) = power C_herm (wi (I (Pt FrA, from)))) /\
  (wo (I (Pt FrB, opol from)) = 0 -> wi (O (Pt FrA, from)) = 0).
Proof. exact (C93_isolates_lem from to lower wi wf w1 w2 w3 wo). Qed.
Print Assumptions C93_isolates.
(** but the rotator of the isolator does not turn: half the light passes, both ways *)
Theorem C93_isolator_refuted from to lower wi wf w1 w2 w3 wo :
  isolator iso_faraday_deg from to lower wi wf w1 w2 w3 wo ->
  (wi (I (Pt BkB, opol from)) = 0 -> power C_herm (wo (O (Pt BkA, from))) = (C_of (1 / 2) : C_fld) * power C_herm (wi (I (Pt FrA, from)))) /\
  (wo (I (Pt FrB, opol from)) = 0 -> power C_herm (wi (O (Pt FrA, from))) = (C_of (1 / 2) : C_fld) * power C_herm (wo (I (Pt BkA, from)))).
Proof. exact (C93_isolator_refuted_lem from to lower wi wf w1 w2 w3 wo). Qed.
Print Assumptions C93_isolator_refuted.
Example C93_isolator_case deg lower : exists wi wf w1 w2 w3 wo,
  isolator deg PolS PolS lower wi wf w1 w2 w3 wo /\ wi (I (Pt BkB, opol PolS)) = 0 /\ wi (I (Pt FrA, PolS)) = 1.
Proof. do 6 eexists. split; [exact (proj1 (ex_isolator deg lower))|split; [exact (proj2 (ex_isolator deg lower))|done]]. Qed.
