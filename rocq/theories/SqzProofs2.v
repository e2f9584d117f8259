(** Proofs about EZSqz: the couplings. *)
From Coq Require Import Reals Lra.
From stdpp Require Import base tactics numbers.
From Verif Require Import Py Fld Herm ElecModel ElecSpec ElecProofs OptModel OptProofs OptRot SigModel SigProofs SqzModel SqzSpec SqzProofs.
From stdpp Require Import list.
Local Open Scope fld_scope.

Section couplings.
  Context {B Q C : Type} `{EqDecision B} `{EqDecision Q} `{EqDecision C}.
  Context (csub : C -> C -> C) (okey : Q) (ckey2 : C) (u : ez_used) (phi : R).
  Notation key := (bool * (B * Q * C))%type.
  Context (Hm : mirrors csub ckey2).
  Notation refl := (sb_mirror csub ckey2).
  Notation es := (ez_coupling csub okey ckey2 u phi).
  Add Field FSq : (f_theory C_fld).
  Lemma refl_refl (k : key) : refl (refl k) = k.
  Proof. destruct k as [l [bq c]]. unfold sb_mirror. cbn [fst snd]. by rewrite Hm, negb_involutive. Qed.
  Lemma refl_ne (k : key) : refl k <> k.
  Proof. destruct k as [[] ?]; by intros [= ?]. Qed.
  Lemma at_refl (k : key) : at_carrier okey (refl k) = at_carrier okey k.
  Proof. done. Qed.
  (** the outputs, with the keys that are there *)
  Definition if_in (k : key) (l : list key) (x : C_fld) : C_fld := if decide (k ∈ l) then x else 0.
  Lemma fsum_key (g : key -> C_fld) k l : NoDup l -> fsum (fun k' => if decide (k' = k) then g k' else 0) l = if_in k l (g k).
  Proof. apply (fsum_delta (K := C_fld)). Qed.
  Lemma out_main (ks : sport -> list key) w p k : (forall p, NoDup (ks p)) -> is_loss p = false ->
    emits (es ks) [] w (O (tmap p, k)) =
    if at_carrier okey k then if_in k (ks p) (ez_cplg1 u * w (I (p, k))) + if_in (refl k) (ks p) (ez_cplg2 u phi (refl k) * w (I (p, refl k))) +
      if_in k (ks (tmap p)) (ez_lR u * w (I (lmap (tmap p), k))) else 0.
  Proof.
    intros Hn Hp. unfold emits, ez_coupling. cbn [fsum]. rewrite fsum_app, !fsum_bind. cbn [fsum]. rewrite !fsum_bind.
    assert (E1 : forall q, is_loss q = false -> fsum (fun k' => fsum (fun e => if decide (e.1.2 = O (tmap p, k)) then e.2 * w e.1.1 else 0) (ez_edges csub okey ckey2 u phi q k')) (ks q) =
      if at_carrier okey k then if decide (q = p) then if_in k (ks p) (ez_cplg1 u * w (I (p, k))) + if_in (refl k) (ks p) (ez_cplg2 u phi (refl k) * w (I (p, refl k)))
        else if_in k (ks (tmap p)) (ez_lR u * w (I (lmap (tmap p), k))) else 0).
    { intros q Hq. destruct (at_carrier okey k) eqn:Ek.
      - destruct (decide (q = p)) as [-> |Hqp].
        + rewrite <- (fsum_key (fun k' => ez_cplg1 u * w (I (p, k'))) k _ (Hn p)), <- (fsum_key (fun k' => ez_cplg2 u phi k' * w (I (p, k'))) (refl k) _ (Hn p)), <- fsum_add.
          apply fsum_ext. intros k' _. unfold ez_edges.
          destruct (decide (k' = k)) as [-> |N1].
          { rewrite Ek. cbn [fsum fst snd]. rewrite decide_True by done. rewrite decide_False by (intros [= E]; by apply (refl_ne k)).
            rewrite decide_False by (destruct p; done). rewrite decide_False by (destruct p; done). rewrite decide_False by (intros E; by apply (refl_ne k)). ring. }
          destruct (decide (k' = refl k)) as [-> |N2].
          { rewrite at_refl, Ek. cbn [fsum fst snd]. rewrite decide_False by (intros [= E]; by apply (refl_ne k)). rewrite decide_True by (by rewrite refl_refl).
            rewrite decide_False by (destruct p; done). rewrite decide_False by (destruct p; done). ring. }
          destruct (at_carrier okey k'); [|cbn [fsum]; ring]. cbn [fsum fst snd]. rewrite decide_False by congruence.
          rewrite decide_False by (intros [= E]; apply N2; rewrite <- E; by rewrite refl_refl).
          rewrite decide_False by (destruct p; done). rewrite decide_False by (destruct p; done). ring.
        + assert (q = tmap p) as -> by (destruct p, q; done).
          rewrite <- (fsum_key (fun k' => ez_lR u * w (I (lmap (tmap p), k'))) k _ (Hn (tmap p))). apply fsum_ext. intros k' _. unfold ez_edges.
          destruct (decide (k' = k)) as [-> |N1].
          { rewrite Ek. cbn [fsum fst snd]. do 3 rewrite decide_False by (destruct p; done). rewrite decide_True by done. ring. }
          destruct (at_carrier okey k'); [|cbn [fsum]; ring]. cbn [fsum fst snd]. do 3 rewrite decide_False by (destruct p; done). rewrite decide_False by congruence. ring.
      - apply fsum_0. intros k' _. unfold ez_edges. destruct (at_carrier okey k') eqn:Ek'; [|done]. cbn [fsum fst snd].
        rewrite decide_False by congruence. rewrite decide_False by (intros [= _ E]; rewrite <- E, at_refl in Ek; congruence).
        rewrite decide_False by (destruct p, q; done). rewrite decide_False by congruence. ring. }
    assert (E2 : forall q, is_loss q = true -> fsum (fun k' => fsum (fun e => if decide (e.1.2 = O (tmap p, k)) then e.2 * w e.1.1 else 0) ([(I (q, k'), O (q, k'), ez_lT u)] : list (edge (K := C_fld) (sport * key)))) (ks q) = 0).
    { intros q Hq. apply fsum_0. intros k' _. cbn [fsum fst snd]. rewrite decide_False by (destruct p, q; done). ring. }
    rewrite !E1, !E2 by done. destruct (at_carrier okey k); [|ring]. destruct p; try done; repeat case_decide; try done; ring.
  Qed.
  Lemma out_loss (ks : sport -> list key) w p k : (forall p, NoDup (ks p)) -> is_loss p = false ->
    emits (es ks) [] w (O (lmap p, k)) =
    (if at_carrier okey k then if_in k (ks p) (ez_lR u * w (I (p, k))) else 0) + if_in k (ks (lmap p)) (ez_lT u * w (I (lmap p, k))).
  Proof.
    intros Hn Hp. unfold emits, ez_coupling. cbn [fsum]. rewrite fsum_app, !fsum_bind. cbn [fsum]. rewrite !fsum_bind.
    assert (E1 : forall q, is_loss q = false -> fsum (fun k' => fsum (fun e => if decide (e.1.2 = O (lmap p, k)) then e.2 * w e.1.1 else 0) (ez_edges csub okey ckey2 u phi q k')) (ks q) =
      if at_carrier okey k then if decide (q = p) then if_in k (ks p) (ez_lR u * w (I (p, k))) else 0 else 0).
    { intros q Hq. destruct (at_carrier okey k) eqn:Ek.
      - destruct (decide (q = p)) as [-> |Hqp].
        + rewrite <- (fsum_key (fun k' => ez_lR u * w (I (p, k'))) k _ (Hn p)). apply fsum_ext. intros k' _. unfold ez_edges.
          destruct (decide (k' = k)) as [-> |N1].
          { rewrite Ek. cbn [fsum fst snd]. do 2 rewrite decide_False by (destruct p; done). rewrite decide_True by done. rewrite decide_False by (destruct p; done). ring. }
          destruct (at_carrier okey k'); [|cbn [fsum]; ring]. cbn [fsum fst snd]. do 2 rewrite decide_False by (destruct p; done). rewrite decide_False by congruence. rewrite decide_False by (destruct p; done). ring.
        + apply fsum_0. intros k' _. unfold ez_edges. destruct (at_carrier okey k'); [|done]. cbn [fsum fst snd]. do 4 rewrite decide_False by (destruct p, q; done). ring.
      - apply fsum_0. intros k' _. unfold ez_edges. destruct (at_carrier okey k') eqn:Ek'; [|done]. cbn [fsum fst snd].
        do 2 rewrite decide_False by (destruct p, q; done). rewrite decide_False by congruence. rewrite decide_False by (destruct p, q; done). ring. }
    assert (E2 : forall q, is_loss q = true -> fsum (fun k' => fsum (fun e => if decide (e.1.2 = O (lmap p, k)) then e.2 * w e.1.1 else 0) ([(I (q, k'), O (q, k'), ez_lT u)] : list (edge (K := C_fld) (sport * key)))) (ks q) =
      if decide (q = lmap p) then if_in k (ks q) (ez_lT u * w (I (q, k))) else 0).
    { intros q Hq. destruct (decide (q = lmap p)) as [-> |Hqp].
      - rewrite <- (fsum_key (fun k' => ez_lT u * w (I (lmap p, k'))) k _ (Hn _)). apply fsum_ext. intros k' _. cbn [fsum fst snd].
        destruct (decide (k' = k)) as [-> |N1]; [rewrite decide_True by done|rewrite decide_False by congruence]; ring.
      - apply fsum_0. intros k' _. cbn [fsum fst snd]. rewrite decide_False by congruence. ring. }
    rewrite !E1, !E2 by done. destruct (at_carrier okey k); destruct p; try done; cbn [lmap]; repeat case_decide; try done; ring.
  Qed.
End couplings.
