(** Final forms for SqzProps.v. *)
From Coq Require Import Reals Lra.
From stdpp Require Import base tactics numbers.
From Verif Require Import Py Fld Herm ElecModel ElecSpec ElecProofs OptModel OptSpec OptProofs OptRot SigModel SigProofs SqzModel SqzSpec SqzProofs SqzProofs2 SqzProofs3.
From stdpp Require Import list.
Local Open Scope fld_scope.

Lemma init_lem V1 oV2 : let V2 := default (/ V1)%R oV2 in (0 < V1 < 1)%R -> (1 <= V1 * V2)%R ->
  exists u, ez_init (given_V V1 oV2 None) = Ok u /\ ez_init (given_V V1 (Some V2) None) = Ok u /\ (0 <= u_loss u < 1)%R /\ (u_G1 u * u_G1 u - u_G2 u * u_G2 u = 1)%R /\
    ((1 - u_loss u) * ((u_G1 u - u_G2 u) * (u_G1 u - u_G2 u)) + u_loss u = V1)%R /\
    ((1 - u_loss u) * ((u_G1 u + u_G2 u) * (u_G1 u + u_G2 u)) + u_loss u = V2)%R /\ (0 < u_G2 u)%R /\ (oV2 = None -> u_loss u = 0%R).
Proof.
  intros V2 HV HVV. destruct (variance_lem V1 V2 None) as (u & Hu & HL & H0 & HG & E1 & E2); [lra..|].
  exists u. rewrite !given_init. destruct oV2 as [x|]; cbn in V2; subst V2; [split_and!; done || lra|].
  destruct (pure_lem V1) as (u' & Hu1 & Hu2 & Hl); [lra..|]. assert (u' = u) as -> by congruence. split_and!; done || lra.
Qed.
Section fields.
  Context {B Q C : Type} `{EqDecision B} `{EqDecision Q} `{EqDecision C}.
  Context (csub : C -> C -> C) (okey : Q) (ckey2 : C) (u : ez_used) (phi : R).
  Notation key := (bool * (B * Q * C))%type.
  Notation refl := (sb_mirror csub ckey2).
  Notation es := (ez_coupling csub okey ckey2 u phi).
  Lemma squeezed_fin (ks : sport -> list key) p (m : B * Q * C) V1 oV2 (plus : bool) : mirrors csub ckey2 ->
    let V2 := default (/ V1)%R oV2 in ez_init (given_V V1 oV2 None) = Ok u -> (0 < V1 < 1)%R -> (1 <= V1 * V2)%R ->
    (forall p, NoDup (ks p)) -> is_loss p = false -> m.1.2 = okey -> (forall q, q = p \/ q = tmap p -> (true, m) ∈ ks q /\ refl (true, m) ∈ ks q) ->
    let s := if plus then 1 else - (1) in
    exists a b : R, (a * a + b * b)%R = (if plus then V2 else V1) /\ forall w : nd (sport * key) -> C_fld,
    quadrature csub ckey2 s phi (fun k => emits (es ks) [] w (O (tmap p, k))) m =
    cre a * quadrature csub ckey2 s phi (fun k => w (I (p, k))) m + cre b * quadrature csub ckey2 s phi (fun k => w (I (lmap (tmap p), k))) m.
  Proof.
    intros Hm V2 Hu HV HVV Hn Hp Ho Hk s. destruct (init_lem V1 oV2) as (u' & Hu1 & Hu2 & _); [done..|]. assert (u' = u) as -> by congruence.
    exact (squeezed_lem csub okey ckey2 u phi Hm ks p m V1 V2 plus Hu2 HV HVV Hn Hp Ho Hk).
  Qed.
  Lemma comm_fin (ks : sport -> list key) ins V1 oV2 p k p' k' : mirrors csub ckey2 ->
    ez_init (given_V V1 oV2 None) = Ok u -> (0 < V1 < 1)%R -> (1 <= V1 * default (/ V1)%R oV2)%R ->
    NoDup ins -> (forall p, NoDup (ks p)) -> is_loss p = false -> is_loss p' = false ->
    (forall x, x = k \/ x = k' -> x.2.1.2 = okey /\ (forall q, is_loss q = false -> x ∈ ks q /\ refl x ∈ ks q) /\ forall q, (q, x) ∈ ins /\ (q, refl x) ∈ ins) ->
    commutator (es ks) ins (p, k) (p', k') = canonical (p, k) (p', k').
  Proof.
    intros Hm Hu HV HVV Hi Hn Hp Hp' Hx. destruct (init_lem V1 oV2) as (u' & Hu1 & _ & HL & HG & _); [done..|]. assert (u' = u) as -> by congruence.
    pose proof (comm_lem csub okey ckey2 u phi Hm ks ins (tmap p) k (tmap p') k' HL HG Hi Hn) as E.
    destruct p, p'; try done; (apply E; [done..|]); intros x Hxk; destruct (Hx x Hxk) as (H1 & H2 & H3); (split; [by apply bool_decide_eq_true|done]).
  Qed.
End fields.

Lemma z_mirrors : mirrors Z.sub 0%Z.
Proof. intros c. lia. Qed.
Lemma way_closed : ez_closed Z.sub 0%Z () way_in.
Proof.
  intros n k n' k' Hk Hr. destruct n as [[]|[]|[]]; cbn [way_in] in Hk; try by apply elem_of_nil in Hk.
  all: cbn [ez_request is_loss] in Hr; try by apply elem_of_nil in Hr.
  all: unfold zk in Hk; repeat (apply elem_of_cons in Hk as [-> |Hk]; [|try by apply elem_of_nil in Hk]).
  all: cbn in Hr; repeat (apply elem_of_cons in Hr as [[= -> ->]|Hr]; [cbn; unfold zk, zm; set_solver|try by apply elem_of_nil in Hr]).
Qed.
Lemma zk_nodup : NoDup zk.
Proof. apply (bool_decide_unpack _); vm_compute; exact Logic.I. Qed.
Lemma oneway_fin V1 V2 : (0 < V1 < 1)%R -> (1 < V1 * V2)%R -> exists (u : ez_used) (a : R),
  ez_init (given_V V1 (Some V2) None) = Ok u /\ (a * a < V1)%R /\
  ez_closed Z.sub 0%Z () way_in /\ (true, zm) ∈ way_in (I Fr) /\
  forall w : nd (sport * zkey) -> C_fld,
  quadrature Z.sub 0%Z (- (1)) 0 (fun k => emits (ez_coupling Z.sub () 0%Z u 0 (fun p => way_in (I p))) [] w (O (Bk, k))) zm =
  cre a * quadrature Z.sub 0%Z (- (1)) 0 (fun k => w (I (Fr, k))) zm.
Proof.
  intros HV HVV. destruct (init_lem V1 (Some V2)) as (u & Hu & _ & HL & HG & E1 & E2 & _); [cbn; lra..|]. cbn in E2.
  destruct (oneway_lem Z.sub () 0%Z u 0 z_mirrors (fun p => way_in (I p)) Fr zm V1 V2) as (a & Ha & Hw); try done; try (cbn; unfold zk, zm; set_solver).
  { intros []; cbn; try apply zk_nodup; apply NoDup_nil_2. }
  exists u, a. split_and!; [done|done|exact way_closed|cbn; unfold zk, zm; set_solver|exact Hw].
Qed.
Lemma amp_fin V1 V2 : (0 < V1 < 1)%R -> (1 <= V1 * V2)%R -> exists (u : ez_used) (a b : R),
  ez_init (given_V V1 (Some V2) None) = Ok u /\ (1 < a * a + b * b)%R /\
  forall w : nd (sport * zkey) -> C_fld,
  quadrature Z.sub 0%Z 1 0 (fun k => emits (ez_coupling Z.sub () 0%Z u 0 (fun _ => zk)) [] w (O (Bk, k))) zm =
  cre a * quadrature Z.sub 0%Z 1 0 (fun k => w (I (Fr, k))) zm + cre b * quadrature Z.sub 0%Z 1 0 (fun k => w (I (LBk, k))) zm.
Proof.
  intros HV HVV. destruct (init_lem V1 (Some V2)) as (u & Hu & _); [cbn; lra..|].
  destruct (squeezed_fin Z.sub () 0%Z u 0 (fun _ => zk) Fr zm V1 (Some V2) true z_mirrors) as (a & b & Hab & Hw); try done.
  { intros _. apply zk_nodup. }
  { intros q _. cbn. unfold zk, zm. set_solver. }
  exists u, a, b. split_and!; [done| |exact Hw]. cbn in Hab. rewrite Hab. nra.
Qed.
Lemma unitary_fin V1 V2 : (0 < V1 < 1)%R -> (1 < V1 * V2)%R -> exists (u : ez_used),
  ez_init (given_V V1 (Some V2) None) = Ok u /\
  commutator (ez_coupling Z.sub () 0%Z u 0 (fun _ => zk)) zins (Bk, (true, zm)) (LFr, (true, zm)) <> canonical (Bk, (true, zm)) (LFr, (true, zm)).
Proof.
  intros HV HVV. destruct (init_lem V1 (Some V2)) as (u & Hu & _ & HL & HG & E1 & E2 & H0 & _); [cbn; lra..|]. cbn in E2. exists u. split; [done|].
  rewrite (loss_comm Z.sub () 0%Z u 0 z_mirrors (fun _ => zk) zins Fr (true, zm)).
  2: { apply (bool_decide_unpack _); vm_compute; exact Logic.I. }
  2: { intros _. apply zk_nodup. }
  2-3: done.
  2: { intros q. cbn. unfold zk, zm. set_solver. }
  2: { intros q. unfold zins. split; apply elem_of_list_bind; exists q; (split; [apply elem_of_list_fmap; eexists; (split; [done|cbn; unfold zk, zm; set_solver])|destruct q; set_solver]). }
  unfold canonical. rewrite decide_True by done. rewrite decide_False by done. cbn [fst snd zm].
  unfold ez_cplg1, ez_lT, ez_lR. rewrite <- !cre_mul. intros E.
  assert (HN : (u_G1 u * R_sqrt.sqrt (1 - u_loss u) * R_sqrt.sqrt (u_loss u) <> 0)%R).
  { assert (u_loss u <> 0)%R. { intros E0. rewrite E0 in E1, E2.
      assert ((V1 * V2 = (u_G1 u * u_G1 u - u_G2 u * u_G2 u) * (u_G1 u * u_G1 u - u_G2 u * u_G2 u))%R) as H by (rewrite <- E1, <- E2; ring). rewrite HG in H. lra. }
    apply Rmult_integral_contrapositive. split; [apply Rmult_integral_contrapositive; split|].
    - intros EG. rewrite EG in HG. nra.
    - apply Rgt_not_eq, R_sqrt.sqrt_lt_R0. lra.
    - apply Rgt_not_eq, R_sqrt.sqrt_lt_R0. lra. }
  apply HN. rewrite <- cre_1, <- cre_mul in E. injection E as E. lra.
Qed.
Lemma loss_fin : exists V1 loss u, ez_init (given_V V1 None (Some loss)) = Ok u /\ (0 < loss < V1)%R /\ (V1 < 1)%R /\ u_loss u <> loss.
Proof.
  destruct loss_lem as (u & Hu & Hl). exists (1 / 2)%R, (1 / 4)%R, u. rewrite given_init, Hl. split_and!; [done|lra..].
Qed.
