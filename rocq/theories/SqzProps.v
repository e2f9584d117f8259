(** C87: the squeezer given by its variances. *)
From Coq Require Import Reals Lra.
From stdpp Require Import base tactics numbers.
From Verif Require Import Py Fld Herm ElecModel ElecSpec OptModel OptSpec SigModel SqzModel SqzSpec SqzProofs SqzProofs2 SqzProofs3 SqzFinal.
From stdpp Require Import list.
Local Open Scope fld_scope.

(** C87: variances of a physical state are accepted, and the gains and the loss give them back;
    without the second variance the state is pure *)
Theorem C87_variance (V1 : R) (oV2 : option R) :
  let V2 := default (/ V1)%R oV2 in (0 < V1 < 1)%R -> (1 <= V1 * V2)%R ->
  exists u, ez_init (given_V V1 oV2 None) = Ok u /\ ez_init (given_V V1 (Some V2) None) = Ok u /\ (0 <= u_loss u < 1)%R /\ (u_G1 u * u_G1 u - u_G2 u * u_G2 u = 1)%R /\
    ((1 - u_loss u) * ((u_G1 u - u_G2 u) * (u_G1 u - u_G2 u)) + u_loss u = V1)%R /\
    ((1 - u_loss u) * ((u_G1 u + u_G2 u) * (u_G1 u + u_G2 u)) + u_loss u = V2)%R /\ (0 < u_G2 u)%R /\ (oV2 = None -> u_loss u = 0%R).
Proof. exact (init_lem V1 oV2). Qed.
Print Assumptions C87_variance.
(** the case: variances 1/10 and 12 *)
Example C87_variance_case : let V2 := default (/ (1 / 10))%R (Some 12%R) in (0 < 1 / 10 < 1)%R /\ (1 <= 1 / 10 * V2)%R.
Proof. cbn. lra. Qed.

(** the two variances may be swapped: the first need not be the one of the squeezed quadrature *)
Theorem C87_swapped_refuted (V1 V2 : R) (loss : option R) : V1 <> 1%R -> V2 <> 1%R ->
  ez_init (given_V V1 (Some V2) loss) = ez_init (given_V V2 (Some V1) loss).
Proof. exact (fun H1 H2 => eq_trans (given_init V1 (Some V2) loss) (eq_trans (swapped_lem V1 V2 loss H1 H2) (eq_sym (given_init V2 (Some V1) loss)))). Qed.
Print Assumptions C87_swapped_refuted.
(** no squeezing is not accepted *)
Theorem C87_unit_refuted (oV2 : option R) : oV2 = None \/ oV2 = Some 1%R -> ez_init (given_V 1 oV2 None) = Err ZeroDivisionError.
Proof. exact (fun H => eq_trans (given_init 1 oV2 None) (unit_lem oV2 None H eq_refl)). Qed.
Print Assumptions C87_unit_refuted.
(** a loss that is given is not the loss that is used *)
Theorem C87_loss_refuted : exists V1 loss u, ez_init (given_V V1 None (Some loss)) = Ok u /\ (0 < loss < V1)%R /\ (V1 < 1)%R /\ u_loss u <> loss.
Proof. exact loss_fin. Qed.
Print Assumptions C87_loss_refuted.
(** no other way to give the squeezing is accepted *)
Theorem C87_others_refuted (a : ez_args) : (a_power a <> None \/ a_field a <> None \/ a_norm a <> None \/ a_V1 a = None) -> exists e, ez_init a = Err e.
Proof. exact (others_lem a). Qed.
Print Assumptions C87_others_refuted.
(** a squeezing in decibels besides the variance is refused, unless it is equal to another argument *)
Theorem C87_conflict (V1 : R) (V2 loss : option R) (s : R) : let a := EzArgs None None None (Some V1) V2 (Some s) None loss in
  (s <> V1 /\ V2 <> Some s /\ loss <> Some s -> ez_init a = Err AssertionError) /\
  (s = V1 \/ V2 = Some s \/ loss = Some s -> ez_init a = ez_init (given_V V1 V2 loss)).
Proof. exact (conj (proj1 (conflict_lem V1 V2 loss s)) (fun H => eq_trans (proj2 (conflict_lem V1 V2 loss s) H) (eq_sym (given_init V1 V2 loss)))). Qed.
Print Assumptions C87_conflict.

(** where the keys are present at both ports, the quadrature at the angle phi leaves with the
    variance 1 given, and the other one with variance 2: the light that enters and the one that the
    loss lets in have unit variance and add up in power *)
Theorem C87_squeezed (B Q C : Type) (Be : EqDecision B) (Qe : EqDecision Q) (Ce : EqDecision C) (csub : C -> C -> C) (okey : Q) (ckey2 : C) (u : ez_used) (phi : R)
    (ks : sport -> list (bool * (B * Q * C))) (p : sport) (m : B * Q * C) (V1 : R) (oV2 : option R) (plus : bool) : mirrors csub ckey2 ->
  let V2 := default (/ V1)%R oV2 in ez_init (given_V V1 oV2 None) = Ok u -> (0 < V1 < 1)%R -> (1 <= V1 * V2)%R ->
  (forall p, NoDup (ks p)) -> is_loss p = false -> m.1.2 = okey ->
  (forall q, q = p \/ q = tmap p -> (true, m) ∈ ks q /\ (false, (m.1, csub ckey2 m.2)) ∈ ks q) ->
  let s := if plus then 1 else - (1) in
  exists a b : R, (a * a + b * b)%R = (if plus then V2 else V1) /\ forall w : nd (sport * (bool * (B * Q * C))) -> C_fld,
  quadrature csub ckey2 s phi (fun k => emits (ez_coupling csub okey ckey2 u phi ks) [] w (O (tmap p, k))) m =
  cre a * quadrature csub ckey2 s phi (fun k => w (I (p, k))) m + cre b * quadrature csub ckey2 s phi (fun k => w (I (lmap (tmap p), k))) m.
Proof. exact (squeezed_fin csub okey ckey2 u phi ks p m V1 oV2 plus). Qed.
Print Assumptions C87_squeezed.
(** the case: one mode at the frequency 3, mirrored at 0 *)
Example C87_squeezed_case : mirrors Z.sub 0%Z /\ NoDup zk /\ (true, zm) ∈ zk /\ (false, (zm.1, (0 - zm.2)%Z)) ∈ zk.
Proof. split_and!; [exact z_mirrors|exact zk_nodup|unfold zk; set_solver..]. Qed.

(** at the angle 0 the amplitude quadrature is anti-squeezed *)
Theorem C87_amplitude_refuted (V1 V2 : R) : (0 < V1 < 1)%R -> (1 <= V1 * V2)%R -> exists (u : ez_used) (a b : R),
  ez_init (given_V V1 (Some V2) None) = Ok u /\ (1 < a * a + b * b)%R /\
  forall w : nd (sport * (bool * (unit * unit * Z))) -> C_fld,
  quadrature Z.sub 0%Z 1 0 (fun k => emits (ez_coupling Z.sub () 0%Z u 0 (fun _ => zk)) [] w (O (Bk, k))) zm =
  cre a * quadrature Z.sub 0%Z 1 0 (fun k => w (I (Fr, k))) zm + cre b * quadrature Z.sub 0%Z 1 0 (fun k => w (I (LBk, k))) zm.
Proof. exact (amp_fin V1 V2). Qed.
Print Assumptions C87_amplitude_refuted.
(** with light in one direction only the keys requested leave out the light that the loss lets in,
    and the variance is less than the one given *)
Theorem C87_oneway_refuted (V1 V2 : R) : (0 < V1 < 1)%R -> (1 < V1 * V2)%R -> exists (u : ez_used) (a : R),
  ez_init (given_V V1 (Some V2) None) = Ok u /\ (a * a < V1)%R /\
  ez_closed Z.sub 0%Z () way_in /\ (true, zm) ∈ way_in (I Fr) /\
  forall w : nd (sport * (bool * (unit * unit * Z))) -> C_fld,
  quadrature Z.sub 0%Z (- (1)) 0 (fun k => emits (ez_coupling Z.sub () 0%Z u 0 (fun p => way_in (I p))) [] w (O (Bk, k))) zm =
  cre a * quadrature Z.sub 0%Z (- (1)) 0 (fun k => w (I (Fr, k))) zm.
Proof. exact (oneway_fin V1 V2). Qed.
Print Assumptions C87_oneway_refuted.

(** the outgoing fields of the two ports keep the canonical commutators *)
Theorem C87_commutators (B Q C : Type) (Be : EqDecision B) (Qe : EqDecision Q) (Ce : EqDecision C) (csub : C -> C -> C) (okey : Q) (ckey2 : C) (u : ez_used) (phi : R)
    (ks : sport -> list (bool * (B * Q * C))) (ins : list (sport * (bool * (B * Q * C)))) (V1 : R) (oV2 : option R)
    (p : sport) (k : bool * (B * Q * C)) (p' : sport) (k' : bool * (B * Q * C)) : mirrors csub ckey2 ->
  ez_init (given_V V1 oV2 None) = Ok u -> (0 < V1 < 1)%R -> (1 <= V1 * default (/ V1)%R oV2)%R ->
  NoDup ins -> (forall p, NoDup (ks p)) -> is_loss p = false -> is_loss p' = false ->
  (forall x, x = k \/ x = k' -> x.2.1.2 = okey /\
    (forall q, is_loss q = false -> x ∈ ks q /\ (negb x.1, (x.2.1, csub ckey2 x.2.2)) ∈ ks q) /\
    forall q, (q, x) ∈ ins /\ (q, (negb x.1, (x.2.1, csub ckey2 x.2.2))) ∈ ins) ->
  commutator (ez_coupling csub okey ckey2 u phi ks) ins (p, k) (p', k') = canonical (p, k) (p', k').
Proof. exact (comm_fin csub okey ckey2 u phi ks ins V1 oV2 p k p' k'). Qed.
Print Assumptions C87_commutators.
(** those with the fields that leave through the loss do not *)
Theorem C87_unitary_refuted (V1 V2 : R) : (0 < V1 < 1)%R -> (1 < V1 * V2)%R -> exists (u : ez_used),
  ez_init (given_V V1 (Some V2) None) = Ok u /\
  commutator (ez_coupling Z.sub () 0%Z u 0 (fun _ => zk)) zins (Bk, (true, zm)) (LFr, (true, zm)) <> canonical (Bk, (true, zm)) (LFr, (true, zm)).
Proof. exact (unitary_fin V1 V2). Qed.
Print Assumptions C87_unitary_refuted.

(** light at another optical frequency does not pass *)
Theorem C87_blocked_refuted (B Q C : Type) (Be : EqDecision B) (Qe : EqDecision Q) (Ce : EqDecision C) (csub : C -> C -> C) (okey : Q) (ckey2 : C) (u : ez_used) (phi : R)
    (ks : sport -> list (bool * (B * Q * C))) (w : nd (sport * (bool * (B * Q * C))) -> C_fld) (p : sport) (k : bool * (B * Q * C)) : mirrors csub ckey2 ->
  (forall p, NoDup (ks p)) -> is_loss p = false -> k.2.1.2 <> okey -> emits (ez_coupling csub okey ckey2 u phi ks) [] w (O (tmap p, k)) = 0.
Proof. exact (fun Hm => blocked_lem csub okey ckey2 u phi Hm ks w p k). Qed.
Print Assumptions C87_blocked_refuted.
(** every field that the light entering the two ports causes is requested *)
Theorem C87_keys (B Q C : Type) (Be : EqDecision B) (Qe : EqDecision Q) (Ce : EqDecision C) (csub : C -> C -> C) (okey : Q) (ckey2 : C) (u : ez_used) (phi : R)
    (ks : nd sport -> list (bool * (B * Q * C))) (p : sport) (k : bool * (B * Q * C)) (q : sport) (k' : bool * (B * Q * C)) (g : C_fld) :
  ez_closed csub ckey2 okey ks -> (I (p, k), O (q, k'), g) ∈ ez_coupling csub okey ckey2 u phi (fun p => ks (I p)) -> is_loss p = false ->
  k ∈ ks (I p) /\ k' ∈ ks (O q).
Proof. exact (keys_lem csub okey ckey2 u phi ks p k q k' g). Qed.
Print Assumptions C87_keys.
(** the case: light from the front only *)
Example C87_keys_case : ez_closed Z.sub 0%Z () way_in /\ way_in (I Fr) = zk.
Proof. exact (conj way_closed eq_refl). Qed.
