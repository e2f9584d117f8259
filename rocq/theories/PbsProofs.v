(** Proofs about the polarizing beamsplitter and the isolator. *)
From stdpp Require Import base tactics list numbers.
From Coq Require Import QArith Qreals Reals Lra.
From Verif Require Import Fld Herm ElecModel ElecSpec ElecProofs OptModel OptSpec OptProofs OptRot OptFinal PbsModel PbsSpec.
Local Open Scope fld_scope.

Section pbs.
  Context {K : fld} (h : herm K).
  Add Field FP : (f_theory K).
  Lemma emits_cons {P} `{EqDecision P} (e : edge (K := K) P) (es : list (edge P)) (w : nd P -> K) t :
    emits (e :: es) [] w t = (if decide (e.1.2 = t) then e.2 * w e.1.1 else 0) + emits es [] w t.
  Proof. unfold emits. cbn [fsum fst snd]. destruct (decide _); ring. Qed.
  Definition sub_pol (l : pol) (w : nd (mport * pol) -> K) (n : nd mport) : K := w (on_pol l n).
  Lemma emits_tag l (es : list (edge (K := K) mport)) (w : nd (mport * pol) -> K) p l' :
    emits (tag_pol l <$> es) [] w (O (p, l')) =
    if decide (l = l') then emits es [] (sub_pol l w) (O p) else 0.
  Proof.
    induction es as [|[[f t] c] es IH].
    - unfold emits. cbn [fmap list_fmap fsum]. destruct (decide (l = l')); ring.
    - rewrite fmap_cons. etransitivity; [apply emits_cons|]. rewrite IH, emits_cons. unfold tag_pol. cbn [fst snd].
      unfold sub_pol. destruct (decide (l = l')) as [<-|Hn].
      + destruct t as [q|q|n]; cbn [on_pol].
        * rewrite !decide_False by congruence. done.
        * destruct (decide (q = p)) as [->|Hq]; [rewrite !decide_True by done; done|rewrite !decide_False by congruence; done].
        * rewrite !decide_False by congruence. done.
      + destruct t as [q|q|n]; cbn [on_pol]; rewrite decide_False by congruence; ring.
  Qed.
  Lemma pbs_emits pass a lower w p l :
    emits (pbs h pass a lower) [] w (O (p, l)) = emits (mirror h (pbs_mirror pass a l) lower) [] (sub_pol l w) (O p).
  Proof.
    unfold pbs. cbn [mbind list_bind]. rewrite app_nil_r, emits_app, !emits_tag. destruct l.
    - rewrite decide_True, decide_False by done. ring.
    - rewrite decide_False, decide_True by done. ring.
  Qed.
  Lemma pbs_out pass a lower w p l : let m := pbs_mirror pass a l in
    emits (pbs h pass a lower) [] w (O (Pt p, l)) =
    m_t h m * w (I (Pt (through p), l)) + side p (m_r h m * w (I (Pt (beside p), l))) + m_l h m * w (I (Ls p, l)).
  Proof.
    cbv zeta. rewrite pbs_emits. rewrite mirror4_out by (by destruct pass, l).
    assert (m_b h (pbs_mirror pass a l) = 0) as -> by (apply mb_0; by destruct pass, l).
    assert (phase (pbs_mirror pass a l) = None) as [-> _]%(ph_1 h _ lower) by (by destruct pass, l).
    unfold sub_pol. destruct p; cbn [on_pol through beside thru other side rsg bsg]; ring.
  Qed.
  Lemma mT_pbs pass (a : pbs_args (K := K)) l : m_T (pbs_mirror pass a l) = passed pass l a.
  Proof. unfold passed. destruct pass, l; cbn [pbs_mirror]; [rewrite decide_True by done|rewrite decide_False by done|rewrite decide_False by done|rewrite decide_True by done]; done. Qed.
  Lemma mR_pbs pass (a : pbs_args (K := K)) l : m_R (pbs_mirror pass a l) = reflected pass l a.
  Proof.
    unfold reflected. destruct pass, l; cbn [pbs_mirror]; [rewrite decide_True by done|rewrite decide_False by done|rewrite decide_False by done|rewrite decide_True by done];
      unfold m_R, select_mirror, reject_mirror; cbn [T_hr L_hr R_backscatter]; ring.
  Qed.
  Lemma mirror_ok_pbs pass (a : pbs_args (K := K)) l : pbs_ok h a -> mirror_ok h (pbs_mirror pass a l).
  Proof.
    intros (H1 & H2 & H3 & H4 & H5 & H6). unfold mirror_ok. rewrite mT_pbs, mR_pbs.
    split; [unfold passed; by destruct (decide _)|split; [unfold reflected; by destruct (decide _)|]].
    destruct pass, l; cbn [pbs_mirror]; (split; [apply (nn_0 h)|done]).
  Qed.
  Lemma iso_ports_in p l : (Pt p, l) ∈ iso_ports.
  Proof. destruct p, l; apply (bool_decide_unpack _); vm_compute; exact Logic.I. Qed.
  Lemma iso_ports_inv q l : (q, l) ∈ iso_ports -> exists p, q = Pt p.
  Proof.
    unfold iso_ports. cbn [mbind list_bind app]. rewrite !elem_of_cons, elem_of_nil.
    intros Hq. repeat (destruct Hq as [[= -> ->]|Hq]; [by eexists|]). done.
  Qed.
End pbs.
