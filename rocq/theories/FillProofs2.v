(** Sets of keys closed under the wants. *)
From stdpp Require Import base tactics numbers gmap fin_sets sets list.
From Coq Require Import Reals.
From Verif Require Import Fld Py Herm InjModel PortModel PdModel PdSpec PdProofs PdProofs2 FillModel FillSpec FillProofs.
Local Open Scope fld_scope.

Section keys.
  Context {P A Q : Type} `{Countable P} `{Countable A} `{Countable Q}.
  Notation K := (key A Q).
  Lemma elem_lights (X : gset K) l o f : (l, o, f) ∈ lights X <-> opt l o f ∈ X.
  Proof.
    unfold lights. rewrite elem_of_list_omap. setoid_rewrite elem_of_elements. split; [|intros Hx; by exists (opt l o f)].
    intros ([[[l' o']|] f'] & Hx & E); cbn in E; [by injection E as -> -> ->|done].
  Qed.
  Lemma elem_modes (X : gset K) o f : (o, f) ∈ modes X <-> opt true o f ∈ X.
  Proof.
    unfold modes. rewrite elem_of_list_omap. setoid_rewrite elem_of_elements. split; [|intros Hx; by exists (opt true o f)].
    intros ([[[[] o']|] f'] & Hx & E); cbn in E; [by injection E as -> ->|done..].
  Qed.
  Lemma elem_signals (X : gset K) f : f ∈ signals X <-> cls f ∈ X.
  Proof.
    unfold signals. rewrite elem_of_list_omap. setoid_rewrite elem_of_elements. split; [|intros Hx; by exists (cls f)].
    intros ([[[l' o']|] f'] & Hx & E); cbn in E; [done|by injection E as ->].
  Qed.
  Lemma nodup_omap {B D} (g : B -> option D) (l : list B) :
    (forall x y z, g x = Some z -> g y = Some z -> x = y) -> NoDup l -> NoDup (omap g l).
  Proof.
    intros Hg. induction 1 as [|x l Hx Hl IH]; [constructor|]. cbn. destruct (g x) as [z|] eqn:E; [|done].
    constructor; [|done]. rewrite elem_of_list_omap. intros (y & Hy & Ey). by rewrite (Hg x y z) in Hx.
  Qed.
  Lemma nodup_lights (X : gset K) : NoDup (lights X).
  Proof.
    apply nodup_omap; [|apply NoDup_elements]. intros [[[l o]|] f] [[[l' o']|] f'] z; cbn; congruence.
  Qed.
  Lemma nodup_modes (X : gset K) : NoDup (modes X).
  Proof.
    apply nodup_omap; [|apply NoDup_elements]. intros [[[[] o]|] f] [[[[] o']|] f'] z; cbn; congruence.
  Qed.
  Lemma nodup_signals (X : gset K) : NoDup (signals X).
  Proof.
    apply nodup_omap; [|apply NoDup_elements]. intros [[[l o]|] f] [[[l' o']|] f'] z; cbn; congruence.
  Qed.
  Lemma both_keys (X : gset K) : (forall o f, opt true o f ∈ X <-> opt false o f ∈ X) -> both (modes X) (lights X).
  Proof.
    intros Hb. unfold both. apply NoDup_Permutation.
    - apply nodup_lights.
    - apply NoDup_app. split; [|split].
      + apply NoDup_fmap_2_strong; [|apply nodup_modes]. intros [] [] _ _ [= -> ->]. done.
      + intros x (m & -> & _)%elem_of_list_fmap (m' & E & _)%elem_of_list_fmap. done.
      + apply NoDup_fmap_2_strong; [|apply nodup_modes]. intros [] [] _ _ [= -> ->]. done.
    - intros [[l o] f]. rewrite elem_lights, elem_of_app, !elem_of_list_fmap. split.
      + intros Hx. destruct l; [left|right]; exists (o, f); (split; [done|]); apply elem_modes; [done|by apply Hb].
      + intros [([o' f'] & E & Hm)|([o' f'] & E & Hm)].
        * assert (l = true /\ o = o' /\ f = f') as (-> & -> & ->) by (inversion E; done). by apply elem_modes.
        * assert (l = false /\ o = o' /\ f = f') as (-> & -> & ->) by (inversion E; done). apply (proj1 (Hb o' f')). by apply elem_modes.
  Qed.
End keys.

Section closed.
  Context {P A Q : Type} `{Countable P} `{Countable A} `{Countable Q}.
  Context (qadd : Q -> Q -> Q) (qneg : Q -> Q) (q0 : Q) (Hz : Q -> R) (reject : Q -> bool) (HF : frequencies qadd qneg q0 Hz).
  Notation K := (key A Q).
  Context (ins outs : list P) (pmap : P -> list P) (inp outp : option P) (C : P -> gset K).
  Notation W := (fill_wants qadd qneg reject ins outs pmap inp outp (fun p k => k ∈ C p)).
  Context (ports : list P) (HB : bounded qneg q0 reject C ports).
  Context (HC : forall p k, p ∈ ports -> W p k -> k ∈ C p).
  Context (Hins : forall i, i ∈ ins -> i ∈ ports).
  Notation moved := (moved qadd qneg).

  Lemma q0_r a : qadd a q0 = a.
  Proof. apply (fq_zero _ _ _ _ HF). Qed.
  Lemma q0_l a : qadd q0 a = a.
  Proof. rewrite (fq_comm _ _ _ _ HF). apply q0_r. Qed.
  Lemma neg_0 : qneg q0 = q0.
  Proof. rewrite <- (q0_l (qneg q0)). apply (fq_neg _ _ _ _ HF). Qed.
  Lemma moved_0 l f : moved l f q0 = f.
  Proof. unfold FillSpec.moved. rewrite neg_0, q0_r. by destruct l. Qed.
  Lemma moved_neg l f F : moved l f (qneg F) = moved (negb l) f F.
  Proof. unfold FillSpec.moved. rewrite (fq_nn _ _ _ _ HF). by destruct l. Qed.

  (** with a signal port that is read *)
  Section out.
    Context (q : P) (Hq : outp = Some q) (Hqp : q ∈ ports).
    Lemma out_0 i o f : i ∈ ins -> opt true o f ∈ C i -> opt false o f ∈ C i -> cls q0 ∈ C q.
    Proof.
      intros Hi Hl Hr. assert (qadd f (qneg f) = q0) as E by apply (fq_neg _ _ _ _ HF).
      apply HC; [done|]. rewrite <- E. eapply fw_beat; [done..|]. rewrite E. apply HB.
    Qed.
    Lemma out_both i l o f : cls q0 ∈ C q -> i ∈ ins -> opt l o f ∈ C i -> opt (negb l) o f ∈ C i.
    Proof.
      intros H0' Hi Hl. apply HC; [by apply Hins|]. pose proof (moved_0 (negb l) f) as E. rewrite <- E. eapply fw_pair; [done..|]. rewrite E.
      apply (bd_keys _ _ _ _ _ HB i (opt l o f)); [by apply Hins|done].
    Qed.
    Lemma out_both_iff i o f : cls q0 ∈ C q -> i ∈ ins -> opt true o f ∈ C i <-> opt false o f ∈ C i.
    Proof. intros H0' Hi. split; intros Hl; [by apply (out_both i true)|by apply (out_both i false)]. Qed.
    Lemma out_neg i F : i ∈ ins -> carrier_at q0 C i -> cls F ∈ C q -> cls (qneg F) ∈ C q.
    Proof.
      intros Hi (o & Hl & Hr) HFq. pose proof (out_0 i o q0 Hi Hl Hr) as H0'.
      assert (reject (qneg F) = false) as Hrej. { apply HB. by apply (bd_keys _ _ _ _ _ HB q (cls F)). }
      assert (opt false o (qneg F) ∈ C i) as Hr'.
      { apply HC; [by apply Hins|]. replace (qneg F) with (moved (negb true) q0 F) by (cbn; apply q0_l).
        apply (fw_pair _ _ _ _ _ _ _ _ _ i q true); [done..|]. cbn. by rewrite q0_l. }
      apply (out_both i false) in Hr'; [|done..]. cbn in Hr'.
      apply HC; [done|]. replace (qneg F) with (qadd (qneg F) (qneg q0)) by (rewrite neg_0; apply q0_r).
      eapply fw_beat; [done..|]. by rewrite neg_0, q0_r.
    Qed.
    (** the injections that read the light *)
    Lemma out_known i l o f F (Std StdC BA BAC : C_fld) : i ∈ ins -> opt l o f ∈ C i -> cls q0 ∈ C q ->
      cls F ∈ C q -> cls (qneg F) ∈ C q -> known C (out_pair qadd qneg reject i q l o f F Std StdC BA BAC).
    Proof.
      intros Hi Hk H0' HFq HNq.
      assert (forall G E v, cls G ∈ C q -> reject E = false -> E = moved l f G ->
        known C [MultiplicativeEdge (i, opt l o E) (q, cls G) v [(i, opt (negb l) o f)]]) as G1.
      { intros G E v HG Hr -> j Hj n Hn. apply elem_of_list_singleton in Hj as ->. cbn [inj_edges] in Hn. apply elem_of_list_singleton in Hn as ->.
        cbn [fst snd]. split; [|done]. apply HC; [by apply Hins|].
        assert (opt (negb l) o f ∈ C i) as Hk' by (by apply out_both).
        pose proof (fw_pair qadd qneg reject ins outs pmap inp outp (fun p k => k ∈ C p) i q (negb l) o f G Hi Hq Hk' HG) as G2.
        rewrite Bool.negb_involutive in G2. by apply G2. }
      assert (forall a b, known C a -> known C b -> known C (a ++ b)) as Happ.
      { intros a b Ha Hb j [Hj|Hj]%elem_of_app; [by apply Ha|by apply Hb]. }
      assert (known C []) as Hnil by (intros j Hj; by apply elem_of_nil in Hj).
      unfold out_pair. cbv zeta. destruct l.
      - destruct (decide _); [apply Happ|].
        + destruct (reject _) eqn:E; [done|]. by apply G1.
        + destruct (reject (qadd f (qneg F))) eqn:E; [done|]. by apply G1.
        + destruct (reject _) eqn:E; [done|]. by apply G1.
      - destruct (decide _); [apply Happ|].
        + destruct (reject _) eqn:E; [done|]. apply G1; [done..|]. by rewrite moved_neg.
        + destruct (reject (qadd f (qneg F))) eqn:E; [done|]. by apply G1.
        + destruct (reject _) eqn:E; [done|]. apply G1; [done..|]. by rewrite moved_neg.
    Qed.
  End out.
  (** the injections of driven light *)
  Section drive.
    Context (q : P) (Hq : inp = Some q) (Hqp : q ∈ ports).
    Lemma drive_known i p l o f F (Std StdC CL CLC : C_fld) : i ∈ ins -> p ∈ pmap i -> p ∈ ports -> opt l o f ∈ C i ->
      cls F ∈ C q -> cls (qneg F) ∈ C q -> known C (drive_pair qadd qneg reject i p q l o f F Std StdC CL CLC).
    Proof.
      intros Hi Hp Hpp Hk HFq HNq.
      assert (forall G E v, cls G ∈ C q -> reject E = false -> E = moved l f G ->
        known C [Triplet (i, opt l o f) (q, cls G) (p, opt l o E) v]) as G1.
      { intros G E v HG Hr -> j Hj n Hn. apply elem_of_list_singleton in Hj as ->. cbn [inj_edges] in Hn.
        assert (opt l o (moved l f G) ∈ C p) as Hto. { apply HC; [done|]. by eapply fw_drive. }
        destruct (decide _).
        - apply elem_of_cons in Hn as [->|Hn%elem_of_list_singleton]; [done|]. by subst.
        - apply elem_of_list_singleton in Hn as ->. done. }
      assert (forall a b, known C a -> known C b -> known C (a ++ b)) as Happ.
      { intros a b Ha Hb j [Hj|Hj]%elem_of_app; [by apply Ha|by apply Hb]. }
      assert (known C []) as Hnil by (intros j Hj; by apply elem_of_nil in Hj).
      unfold drive_pair. cbv zeta. destruct l.
      - apply Happ.
        + destruct (reject _) eqn:E; [done|]. by apply G1.
        + destruct (reject (qadd f (qneg F))) eqn:E; [done|]. by apply G1.
      - apply Happ.
        + destruct (reject _) eqn:E; [done|]. apply G1; [done..|]. by rewrite moved_neg.
        + destruct (reject (qadd f (qneg F))) eqn:E; [done|]. by apply G1.
    Qed.
    (** light passes both ways *)
    Lemma drive_neg i p o F : i ∈ ins -> p ∈ pmap i -> p ∈ ports -> (forall k, k ∈ C p -> k ∈ C i) -> opt true o q0 ∈ C i ->
      cls F ∈ C q -> cls (qneg F) ∈ C q.
    Proof.
      intros Hi Hp Hpp Hback Hl HFq.
      assert (reject F = false) as HrF by (by apply (bd_keys _ _ _ _ _ HB q (cls F))).
      assert (opt true o F ∈ C i) as HLF.
      { apply Hback, HC; [done|]. replace F with (moved true q0 F) by (cbn; apply q0_l). eapply fw_drive; [done..|]. cbn. by rewrite q0_l. }
      assert (opt true o q0 ∈ C p) as HL0 by (apply HC; [done|]; by eapply fw_through).
      apply HC; [done|]. replace (qneg F) with (qadd q0 (qneg F)) by apply q0_l.
      apply (fw_change _ _ _ _ _ _ _ _ _ i p q true o F q0); [done..|]. rewrite q0_l. by apply HB.
    Qed.
  End drive.
End closed.

Section loops.
  Context {P A Q : Type} `{Countable P} `{Countable A} `{Countable Q}.
  Context (qadd : Q -> Q -> Q) (qneg : Q -> Q) (reject : Q -> bool).
  Notation K := (key A Q).
  Notation js := (list (inj C_fld P K)).
  Implicit Types (C : P -> gset K).
  Lemma known_nil C : known C [].
  Proof. intros j Hj. by apply elem_of_nil in Hj. Qed.
  Lemma known_app C a b : known C a -> known C b -> known C (a ++ b).
  Proof. intros Ha Hb j [Hj|Hj]%elem_of_app; [by apply Ha|by apply Hb]. Qed.
  Lemma drives_known C (pair : Q -> js) lks todo dn r : (forall F, F ∈ lks -> qneg F ∈ lks -> known C (pair F)) -> (forall F, F ∈ todo -> F ∈ lks) ->
    drives qneg pair lks todo dn = Ok r -> known C r.
  Proof.
    intros Hp. revert dn r. induction todo as [|F todo IH]; intros dn r Ht; cbn [drives]; [intros [= <-]; apply known_nil|].
    assert (forall G, G ∈ todo -> G ∈ lks) as Ht' by (intros G HG; apply Ht; by right).
    destruct (decide (F ∈ dn)); [by apply IH|]. destruct (decide (qneg F = F)); [by apply IH|]. destruct (decide (qneg F ∈ lks)); [|done].
    destruct (drives _ _ _ todo _) as [b|] eqn:Eb; [|done]. cbn [mbind res_bind]. intros [= <-]. apply known_app; [|by eapply IH].
    apply Hp; [apply Ht; left|done].
  Qed.
  Lemma outs_known C (pair : Q -> js) lks todo dn r : (forall F, F ∈ lks -> qneg F ∈ lks -> known C (pair F)) -> (forall F, F ∈ todo -> F ∈ lks) ->
    outs qneg pair lks todo dn = Ok r -> known C r.
  Proof.
    intros Hp. revert dn r. induction todo as [|F todo IH]; intros dn r Ht; cbn [outs]; [intros [= <-]; apply known_nil|].
    assert (forall G, G ∈ todo -> G ∈ lks) as Ht' by (intros G HG; apply Ht; by right).
    destruct (decide (F ∈ dn)); [by apply IH|]. destruct (decide (qneg F ∈ lks)); [|done].
    destruct (outs _ _ _ todo _) as [b|] eqn:Eb; [|done]. cbn [mbind res_bind]. intros [= <-]. apply known_app; [|by eapply IH].
    apply Hp; [apply Ht; left|done].
  Qed.
  Lemma each_known {B} C (f : B -> res js) l r : (forall x a, x ∈ l -> f x = Ok a -> known C a) -> each f l = Ok r -> known C r.
  Proof.
    revert r. induction l as [|x l IH]; intros r Hf; cbn [each]; [intros [= <-]; apply known_nil|].
    destruct (f x) as [a|] eqn:Ea; [|done]. cbn [mbind res_bind]. destruct (each f l) as [b|] eqn:Eb; [|done]. cbn [mbind res_bind].
    intros [= <-]. apply known_app; [eapply Hf; [left|done]|]. eapply IH; [|done]. intros y c Hy. apply Hf. by right.
  Qed.
  Lemma fill_known C pfrom l o f pto inp outp Std StdC CL CLC BA BAC thr r :
    (forall p q lks F, pto = Some p -> inp = Some (q, lks) -> F ∈ lks -> qneg F ∈ lks -> known C (drive_pair qadd qneg reject pfrom p q l o f F Std StdC CL CLC)) ->
    (forall p, pto = Some p -> opt l o f ∈ C pfrom /\ opt l o f ∈ C p) ->
    (forall q lks F, outp = Some (q, lks) -> F ∈ lks -> qneg F ∈ lks -> known C (out_pair qadd qneg reject pfrom q l o f F Std StdC BA BAC)) ->
    modulations_fill qadd qneg reject pfrom (l, o, f) pto inp outp Std StdC CL CLC BA BAC thr = Ok r -> known C r.
  Proof.
    intros Hd Ht Ho. unfold modulations_fill.
    destruct (match pto with Some _ => match inp with Some _ => _ | None => _ end | None => _ end) as [a|] eqn:Ea; [|done]. cbn [mbind res_bind].
    destruct (match pto with Some _ => Ok _ | None => _ end) as [b|] eqn:Eb; [|done]. cbn [mbind res_bind].
    destruct (match outp with Some _ => _ | None => _ end) as [c|] eqn:Ec; [|done]. cbn [mbind res_bind].
    intros [= <-]. apply known_app; [|apply known_app].
    - destruct pto as [p|]; [|injection Ea as <-; apply known_nil]. destruct inp as [[q lks]|]; [|injection Ea as <-; apply known_nil].
      eapply drives_known; [| |exact Ea]; [|done]. intros F HF' HN. by eapply Hd.
    - destruct pto as [p|]; [|injection Eb as <-; apply known_nil]. injection Eb as <-. destruct thr; [|apply known_nil].
      intros j Hj n Hn. apply elem_of_list_singleton in Hj as ->. cbn [inj_edges] in Hn. apply elem_of_list_singleton in Hn as ->.
      cbn [fst snd]. by apply Ht.
    - destruct outp as [[q lks]|]; [|injection Ec as <-; apply known_nil]. eapply outs_known; [| |exact Ec]; [|done]. intros F HF' HN. by eapply Ho.
  Qed.
End loops.
