(** Proofs about the acousto-optic modulator. *)
From Coq Require Import Reals Lra.
From stdpp Require Import base tactics list numbers gmap.
From stdpp Require Import list.
From Verif Require Import Py Fld Herm SigModel SigProofs OdeModel OdeSpec OdeProofs OdeProofs2 OdeProofs3 NoiProofs3 ElecProofs NlcProofs2 NlcProofs3 AomModel AomSpec.
Local Open Scope fld_scope.
Add Field FA : (f_theory C_fld).

Section dict.
  Context {X : Type} `{Countable X}.
  Definition tdict (ts : list (X * mono C_fld X)) : gmap X (list (mono C_fld X)) :=
    foldl (fun d e => <[e.1 := default [] (d !! e.1) ++ [e.2]]> d) ∅ ts.
  Lemma tdict_poly (x : X -> C_fld) k (ts : list (X * mono C_fld X)) :
    poly_at x (default [] (tdict ts !! k)) = fsum (fun e => if decide (e.1 = k) then prod_at x e.2 else 0) ts.
  Proof.
    unfold tdict.
    enough (forall d, poly_at x (default [] (foldl (fun (d : gmap X (list (mono C_fld X))) e => <[e.1 := default [] (d !! e.1) ++ [e.2]]> d) d ts !! k)) =
      poly_at x (default [] (d !! k)) + fsum (fun e => if decide (e.1 = k) then prod_at x e.2 else 0) ts) as ->.
    { rewrite lookup_empty. cbn [default]. unfold poly_at at 1. cbn [fsum]. ring. }
    induction ts as [|e ts IH]; intros d; cbn [foldl fsum]; [ring|]. rewrite IH. destruct (decide (e.1 = k)) as [E|E].
    - subst k. rewrite lookup_insert. cbn [default]. unfold Datatypes.id. rewrite poly_at_app. unfold poly_at at 2. cbn [fsum]. ring.
    - rewrite lookup_insert_ne by done. ring.
  Qed.
  Lemma tdict_keys (ts : list (X * mono C_fld X)) k lt : tdict ts !! k = Some lt -> (exists e, e ∈ ts /\ e.1 = k) /\ (forall t, t ∈ lt -> (k, t) ∈ ts).
  Proof.
    unfold tdict. revert lt. induction ts as [|e ts IH] using rev_ind; intros lt E; [cbn [foldl] in E; by rewrite lookup_empty in E|].
    rewrite foldl_app in E. cbn [foldl] in E. apply lookup_insert_Some in E as [[Ek E]|[Hne E]].
    - split; [exists e; split; [set_solver|done]|]. subst lt. intros t [Ht|Ht%elem_of_list_singleton]%elem_of_app.
      + destruct (foldl _ ∅ ts !! e.1) as [lt'|] eqn:E'; [|set_solver]. cbn [default] in Ht. rewrite Ek in E'. destruct (IH _ E') as [_ H'].
        apply elem_of_app. left. by apply H'.
      + subst t k. apply elem_of_app. right. destruct e. set_solver.
    - destruct (IH _ E) as [(e' & He' & Hk) H']. split; [exists e'; set_solver|]. intros t Ht. apply elem_of_app. left. by apply H'.
  Qed.
  Lemma tdict_has (ts : list (X * mono C_fld X)) e : e ∈ ts -> exists lt, tdict ts !! e.1 = Some lt.
  Proof.
    unfold tdict. induction ts as [|e' ts IH] using rev_ind; intros He; [set_solver|].
    rewrite foldl_app. cbn [foldl]. apply elem_of_app in He. destruct (decide (e'.1 = e.1)) as [E|E].
    - rewrite E, lookup_insert. by eexists.
    - rewrite lookup_insert_ne by done. destruct He as [He|He%elem_of_list_singleton]; [by apply IH|congruence].
  Qed.
End dict.

Lemma NoDup_twice {A M} (l : bool) (S : list (A * M)) : NoDup S -> NoDup (m ← S; [(m.1, (l, m.2)); (m.1, (negb l, m.2))]).
Proof.
  induction 1 as [|m S' Hm HS' IH]; [constructor|]. rewrite bind_cons. apply NoDup_app. split_and!.
  - constructor; [|constructor; [set_solver|constructor]]. intros Hx%elem_of_list_singleton. injection Hx. by destruct l.
  - intros y Hy Hz. apply elem_of_list_bind in Hz as (m' & Hz & Hm'). destruct m as [p m], m' as [p' m']. cbn [fst snd] in *.
    rewrite !elem_of_cons, elem_of_nil in Hy, Hz. apply Hm. assert ((p', m') = (p, m)) as <-; [|done].
    destruct Hy as [->|[->|[]]], Hz as [[=]|[[=]|[]]]; by subst.
  - done.
Qed.

Section only.
  Context {K : fld} {P PK : Type} `{Countable P} `{Countable PK}.
  Context (c : ode_spec (K := K) (P := P) (PK := PK)) (moved : K -> K -> bool).
  (** once set up anew, couplings are between the keys of the equations only *)
  Definition only_pks (ob : ode_obj (K := K) (PK := PK)) : Prop :=
    (forall i o v, b_solution ob !! (i, o) = Some v -> (exists p, p ∈ od_pks c /\ od_in c !! p = Some i) /\ (exists q, q ∈ od_pks c /\ od_out c !! q = Some (Some o))) /\
    (forall o v, b_inj ob !! o = Some v -> exists q, q ∈ od_pks c /\ od_out c !! q = Some (Some o)).
  Lemma gen_pks ob sv ob' : generate_solution c moved ob sv = Ok ob' -> ob' = ob \/ only_pks ob'.
  Proof.
    unfold generate_solution. destruct (mapM (fun pk => od_in c !! pk) (od_pks c)) as [ins|] eqn:Ei; [|done].
    destruct (forallb _ ins); [intros [= <-]; by left|]. cbv zeta.
    destruct (mapM (M := option) (fun pk => od_out c !! pk) (od_pks c)) as [outs|] eqn:Eo; [|done]. intros [= <-]. right.
    apply mapM_Some in Ei. apply mapM_Some in Eo.
    assert (forall j i, ins !! j = Some i -> exists p, p ∈ od_pks c /\ od_in c !! p = Some i) as Hi.
    { intros j i Ej. destruct (Forall2_lookup_r _ _ _ _ _ Ei Ej) as (p & Hp & E). exists p. split; [by eapply elem_of_list_lookup_2|done]. }
    assert (forall j o, outs !! j = Some (Some o) -> exists q, q ∈ od_pks c /\ od_out c !! q = Some (Some o)) as Ho.
    { intros j o Ej. destruct (Forall2_lookup_r _ _ _ _ _ Eo Ej) as (p & Hp & E). exists p. split; [by eapply elem_of_list_lookup_2|done]. }
    split; cbn [b_solution b_inj].
    - intros i o v E. apply dict_of_inv, elem_of_list_bind in E as (io & E & _). apply elem_of_list_bind in E as (ie & E & _).
      destruct (ins !! ie.1) as [i'|] eqn:E1; [|set_solver]. destruct (outs !! io) as [[o'|]|] eqn:E2; [|set_solver..].
      apply elem_of_list_singleton in E. injection E as -> -> _. split; [by eapply Hi|by eapply Ho].
    - intros o v E. apply dict_of_inv, elem_of_list_bind in E as (io & E & _). destruct (outs !! io) as [[o'|]|] eqn:E2; [|set_solver..].
      apply elem_of_list_singleton in E. injection E as -> _. by eapply Ho.
  Qed.
  Lemma updates_pks vs ob : ode_updates c moved vs = Ok ob -> ob = obj_init c \/ only_pks ob.
  Proof.
    unfold ode_updates. assert (obj_init c = obj_init c \/ only_pks (obj_init c)) as H0' by by left. revert H0'. generalize (obj_init c) at 1 3 4.
    induction vs as [|sv vs IH]; intros ob0 H0b; cbn [mfor]; [by intros [= <-]|].
    destruct (generate_solution c moved ob0 sv) as [ob1|e] eqn:E; [|done]. apply IH. apply gen_pks in E as [->|E]; [done|by right].
  Qed.
End only.

Section proofs.
  Context {B C : Type} `{Countable B} `{Countable C}.
  Context (cadd csub : C -> C -> C) (cneg : C -> C) (center : C -> R) (rejected : C -> bool) (split : R) (dir : bool -> R) (kappa : R).
  Context (ks : bool -> list (bool * (B * C))) (Ds : list C).
  Notation ak := (@akey B C).
  Notation ts := (aom_terms cadd csub center rejected split dir kappa ks Ds).
  Lemma elem_terms e : e ∈ ts -> exists p l b c F, (l, (b, c)) ∈ ks p /\ F ∈ Ds /\
    e = (inl (negb p, (l, (b, aom_shift cadd csub l c F))), (aom_gain kappa l, [inl (p, (l, (b, c))); inr F])).
  Proof.
    clear cneg. unfold aom_terms. intros He. apply elem_of_list_bind in He as (p & He & _). apply elem_of_list_bind in He as ([l [b c]] & He & Hk).
    apply elem_of_list_bind in He as (F & He & HF). unfold aom_pair in He. destruct (rejected _); [set_solver|]. destruct (Rlt_dec _ _); [|set_solver].
    apply elem_of_list_singleton in He. exists p, l, b, c, F. done.
  Qed.
  Lemma aom_wf N pks : pks ≡ₚ elements (pks_grab (aom_dict ts)) -> well_formed (aom_ode N pks ts) (pair false).
  Proof.
    clear cneg. intros Hp.
    assert (forall k, k ∈ pks -> k ∈ ts ≫= aom_mapped) as Hm.
    { intros k. rewrite Hp, elem_of_elements. unfold pks_grab. rewrite elem_of_list_to_set, elem_of_list_bind.
      intros ([q lt] & Hk & Hm). apply elem_of_map_to_list in Hm. apply tdict_keys in Hm as [(e & He & Ee) Hlt]. cbn [fst snd] in Hk.
      apply elem_of_list_bind. apply elem_of_cons in Hk as [->|Hk].
      - exists e. split; [|done]. destruct (elem_terms e He) as (p & l & b & c & F & _ & _ & ->). cbn in Ee. rewrite <- Ee. unfold aom_mapped. cbn. set_solver.
      - apply elem_of_list_bind in Hk as (t & Hk & Ht). apply Hlt in Ht. exists (q, t). split; [|done].
        destruct (elem_terms _ Ht) as (p & l & b & c & F & _ & _ & [= -> ->]). unfold aom_mapped. cbn in *. set_solver. }
    split_and!.
    - done.
    - intros k Hk. apply Hm in Hk. cbn [aom_ode od_in od_out]. split.
      + unfold aom_in. apply elem_of_list_to_map_1'.
        * intros y (k' & E & _)%elem_of_list_fmap. congruence.
        * apply elem_of_list_fmap. by exists k.
      + exists (match k with inl _ => Some (true, k) | inr _ => None end). unfold aom_out. apply elem_of_list_to_map_1'.
        * intros y (k' & E & _)%elem_of_list_fmap. injection E as <- ->. done.
        * apply elem_of_list_fmap. by exists k.
    - intros p q _ _ [= E]. done.
    - intros p q o _ _ H1 H2. cbn [aom_ode od_out] in *. unfold aom_out in *.
      apply elem_of_list_to_map_2, elem_of_list_fmap in H1 as (e1 & E1 & _). apply elem_of_list_to_map_2, elem_of_list_fmap in H2 as (e2 & E2 & _).
      injection E1 as <- E1. injection E2 as <- E2. destruct p, q; congruence.
  Qed.
  (** * the equations *)
  Context (S : list (bool * (B * C))) (Hks : at_ports S ks).
  Context (Hcl : closed cadd cneg center rejected split dir S Ds).
  Context (Hsub : forall a b, csub a b = cadd a (cneg b)) (Hcen : forall F, center (cneg F) = (- center F)%R).
  Definition at_key (x : ak -> C_fld) (k : ak) (e : ak * mono C_fld ak) : C_fld := if decide (e.1 = k) then prod_at x e.2 else 0.
  Lemma fsum_ports (h : bool -> bool * (B * C) -> C_fld) l : fsum (fun p => fsum (h p) (ks p)) [true; false] =
    fsum (fun m => h m.1 (l, m.2) + h m.1 (negb l, m.2)) S.
  Proof using Hks.
    clear -Hks. destruct Hks as [HS Hk].
    transitivity (fsum (fun m => h m.1 m.2) (p ← [true; false]; pair p <$> ks p)).
    { rewrite fsum_bind. apply fsum_ext. intros p _. by rewrite fsum_map. }
    transitivity (fsum (fun m => h m.1 m.2) (m ← S; [(m.1, (l, m.2)); (m.1, (negb l, m.2))])).
    - apply fsum_perm, NoDup_Permutation.
      + cbn. rewrite app_nil_r. apply NoDup_app. split_and!.
        * apply NoDup_fmap_2_strong; [congruence|]. apply Hk.
        * intros y (k & -> & _)%elem_of_list_fmap (k' & [=] & _)%elem_of_list_fmap.
        * apply NoDup_fmap_2_strong; [congruence|]. apply Hk.
      + by apply NoDup_twice.
      + intros [p [l' m]]. rewrite !elem_of_list_bind. split.
        * intros (p' & Hx & _). apply elem_of_list_fmap in Hx as (k & [= -> <-] & Hx). apply Hk in Hx. exists (p', m). split; [|done].
          cbn [fst snd]. rewrite !elem_of_cons. destruct l, l'; cbn; auto.
        * intros ([p' m'] & Hx & Hm). cbn [fst snd] in Hx. exists p. split; [|destruct p; rewrite !elem_of_cons; auto].
          apply elem_of_list_fmap. exists (l', m). split; [done|]. apply Hk. rewrite !elem_of_cons, elem_of_nil in Hx.
          destruct Hx as [[= -> _ ->]|[[= -> _ ->]|[]]]; done.
    - rewrite fsum_bind. apply fsum_ext. intros s _. cbn [fsum fst snd]. ring.
  Qed.
  Lemma rate_lem x l m : m ∈ S -> poly_at x (default [] (aom_dict ts !! inl (m.1, (l, m.2)))) = aom_rate cadd cneg center split dir kappa S Ds l m x.
  Proof using All.
    intros Hm. etransitivity; [apply (tdict_poly x)|]. transitivity (fsum (at_key x (inl (m.1, (l, m.2)))) ts); [done|].
    unfold aom_terms. rewrite !fsum_bind. etransitivity; [apply fsum_ext; intros p _; rewrite fsum_bind; reflexivity|].
    rewrite (fsum_ports _ l). unfold aom_rate. rewrite <- fsum_mul_l. apply fsum_ext. intros m1 H1. rewrite !fsum_bind, <- fsum_add, <- fsum_mul_l.
    apply fsum_ext. intros F HF. cbn zeta.
    assert (fsum (at_key x (inl (m.1, (l, m.2)))) (aom_pair cadd csub center rejected split dir kappa m1.1 (negb l, m1.2) F) = 0) as ->.
    { unfold aom_pair. destruct m1 as [p1 [b1 c1]]. cbn [fst snd]. destruct (rejected _); [done|]. destruct (Rlt_dec _ _); [|done]. cbn [fsum]. unfold at_key. cbn [fst].
      rewrite decide_False; [ring|]. intros [= _ E]. by destruct l. }
    destruct m1 as [p1 [b1 c1]], m as [p [b c]]. cbn [fst snd] in *. unfold aom_pair, moved_by, carries. cbn [fst snd].
    set (F' := if l then F else cneg F).
    assert (aom_shift cadd csub l c1 F = cadd c1 F') as -> by (unfold aom_shift, F'; destruct l; [done|by rewrite Hsub]).
    assert ((if l then 1 else -1) * center F * dir p1 = center F' * dir p1)%R as -> by (unfold F'; destruct l; [lra|rewrite Hcen; lra]).
    destruct Hcl as (_ & _ & Hrej & _). specialize (Hrej _ Hm). cbn [fst snd] in Hrej.
    destruct (decide _) as [[E Hc]|Hn].
    - injection E as -> -> <-. rewrite Hrej. destruct (Rlt_dec _ _); [|contradiction]. cbn [fsum]. unfold at_key. cbn [fst snd].
      rewrite decide_True by done. unfold prod_at, aom_gain. cbn [fst snd map fprod]. destruct l; match goal with |- _ * (?u * (?v * _)) + _ + _ = _ * (?u' * ?v') => change u' with u; change v' with v end; ring.
    - destruct (rejected (cadd c1 F')); [cbn [fsum]; ring|]. destruct (Rlt_dec _ _) as [Hc|]; [|cbn [fsum]; ring]. cbn [fsum]. unfold at_key. cbn [fst].
      rewrite decide_False; [ring|]. intros [= E1 E2 E3]. apply Hn. subst. done.
  Qed.
  Lemma keys_in N pks p l m : pks ≡ₚ elements (pks_grab (aom_dict ts)) -> inl (p, (l, m)) ∈ od_pks (aom_ode N pks ts) -> (p, m) ∈ S.
  Proof using All.
    intros Hp. cbn [aom_ode od_pks]. rewrite Hp, elem_of_elements. unfold pks_grab. rewrite elem_of_list_to_set, elem_of_list_bind.
    assert (forall e, e ∈ ts -> exists p1 l b c F, (p1, (b, c)) ∈ S /\ (negb p1, (b, aom_shift cadd csub l c F)) ∈ S /\
      e = (inl (negb p1, (l, (b, aom_shift cadd csub l c F))), (aom_gain kappa l, [inl (p1, (l, (b, c))); inr F]))) as Hts.
    { unfold aom_terms. intros e He. apply elem_of_list_bind in He as (p1 & He & _). apply elem_of_list_bind in He as ([l1 [b c]] & He & Hk).
      apply elem_of_list_bind in He as (F & He & HF). unfold aom_pair in He. destruct (rejected _) eqn:Er; [set_solver|]. destruct (Rlt_dec _ _) as [Hlt|]; [|set_solver].
      apply elem_of_list_singleton in He. exists p1, l1, b, c, F. destruct Hks as [_ Hk']. apply Hk' in Hk. split_and!; [done| |done].
      destruct Hcl as (_ & Hneg & _ & Hmv). unfold aom_shift in *. destruct l1.
      - apply (Hmv (p1, (b, c)) F Hk HF Er). unfold carries. cbn [fst]. lra.
      - rewrite Hsub in *. apply (Hmv (p1, (b, c)) (cneg F) Hk (Hneg _ HF) Er). unfold carries. cbn [fst]. rewrite Hcen. lra. }
    intros ([q lt] & Hk & Hm). apply elem_of_map_to_list in Hm. apply tdict_keys in Hm as [(e & He & Ee) Hlt]. cbn [fst snd] in Hk.
    apply elem_of_cons in Hk as [<-|Hk].
    - destruct (Hts e He) as (p1 & l1 & b & c & F & _ & Hin & ->). cbn [fst] in Ee. injection Ee as <- _ <-. done.
    - apply elem_of_list_bind in Hk as (t & Hk & Ht). apply Hlt in Ht.
      destruct (Hts _ Ht) as (p1 & l1 & b & c & F & Hin & _ & [= -> ->]). cbn [fst snd] in Hk. rewrite !elem_of_cons, elem_of_nil in Hk.
      destruct Hk as [[= -> _ ->]|[[=]|[]]]. done.
  Qed.
  (** * conjugates and energy *)
  Context (Hinv : forall F, cneg (cneg F) = F) (Hback : forall c F, cadd (cadd c F) (cneg F) = c) (Hdir : forall p, dir (negb p) = (- dir p)%R).
  Context (x : ak -> C_fld) (Hx : physical cneg S Ds x).
  Lemma fsum_neg (h : C -> C_fld) : fsum h Ds = fsum (fun F => h (cneg F)) Ds.
  Proof using Hcl Hinv.
    clear -Hcl Hinv. destruct Hcl as (Hnd & Hneg & _). rewrite <- (fsum_map cneg h). apply fsum_perm, NoDup_Permutation; [done| |].
    - apply NoDup_fmap_2_strong; [|done]. intros a b _ _ E. by rewrite <- (Hinv a), <- (Hinv b), E.
    - intros F. rewrite elem_of_list_fmap. split.
      + intros HF. exists (cneg F). split; [by rewrite Hinv|by apply Hneg].
      + intros (F' & -> & HF'). by apply Hneg.
  Qed.
  Lemma conj_lem m : aom_rate cadd cneg center split dir kappa S Ds false m x = cconj (aom_rate cadd cneg center split dir kappa S Ds true m x).
  Proof using Hcl Hinv Hx.
    unfold aom_rate. rewrite !cconj_mul, cconj_fsum, cconj_cre. f_equal.
    { f_equal. rewrite (conj_opp C_herm ci : cconj (- ci) = - cconj ci), cconj_ci. ring. }
    apply fsum_ext. intros m1 H1. rewrite cconj_fsum, fsum_neg. apply fsum_ext. intros F HF. cbn zeta. rewrite Hinv.
    destruct (decide _); [|symmetry; exact (conj_0 C_herm)]. destruct Hx as [Hf Hd]. by rewrite (Hf _ H1), (Hd _ HF), cconj_mul.
  Qed.
  Lemma back_iff (m m1 : bool * (B * C)) F : moved_by cadd m (cneg F) = m1 /\ carries center split dir m.1 (cneg F) <-> moved_by cadd m1 F = m /\ carries center split dir m1.1 F.
  Proof using Hinv Hback Hdir Hcen.
    unfold moved_by, carries. destruct m as [p [b c]], m1 as [p1 [b1 c1]]. cbn [fst snd]. rewrite Hcen. split.
    - intros [[= <- <- <-] Hlt]. rewrite negb_involutive, Hdir. split; [|lra]. do 2 f_equal. rewrite <- (Hinv F) at 2. apply Hback.
    - intros [[= <- <- <-] Hlt]. rewrite negb_involutive, Hdir. split; [|lra]. do 2 f_equal. apply Hback.
  Qed.
  Lemma power_lem : aom_power S (fun k => default [] (aom_dict ts !! k)) x = 0.
  Proof using All.
    set (X := fun m : bool * (B * C) => x (inl (m.1, (true, m.2)))).
    set (chi := fun (m1 : bool * (B * C)) F m => if decide (moved_by cadd m1 F = m /\ carries center split dir m1.1 F) then 1 else 0 : C_fld).
    set (W := fsum (fun m => fsum (fun m1 => fsum (fun F => chi m1 F m * (cconj (X m) * X m1 * x (inr F))) Ds) S) S).
    assert (cconj W = W) as HW.
    { unfold W. rewrite cconj_fsum. transitivity (fsum (fun m => fsum (fun m1 => fsum (fun F => chi m1 F m * (X m * cconj (X m1) * x (inr (cneg F)))) Ds) S) S).
      - apply fsum_ext. intros m Hm. rewrite cconj_fsum. apply fsum_ext. intros m1 H1. rewrite cconj_fsum. apply fsum_ext. intros F HF.
        destruct Hx as [_ Hd]. rewrite !cconj_mul, cconj_conj, <- (Hd _ HF). f_equal. unfold chi. destruct (decide _); [apply cconj_1|exact (conj_0 C_herm)].
      - rewrite fsum_swap. apply fsum_ext. intros m Hm. apply fsum_ext. intros m1 H1. rewrite fsum_neg. apply fsum_ext. intros F HF. rewrite Hinv.
        assert (chi m (cneg F) m1 = chi m1 F m) as ->; [|ring]. unfold chi. pose proof (back_iff m m1 F) as Hb.
        destruct (decide (moved_by cadd m (cneg F) = m1 /\ _)) as [Hy|Hy].
        + apply Hb in Hy. by rewrite decide_True.
        + rewrite decide_False; [done|]. intros Hz. by apply Hy, Hb. }
    assert (fsum (fun m => cconj (X m) * aom_rate cadd cneg center split dir kappa S Ds true m x) S = - ci * cre kappa * W) as E.
    { unfold W. rewrite <- fsum_mul_l. apply fsum_ext. intros m Hm. unfold aom_rate. rewrite <- !fsum_mul_l. apply fsum_ext. intros m1 H1.
      rewrite <- !fsum_mul_l. apply fsum_ext. intros F HF. cbn zeta. unfold chi, X. destruct (decide _); ring. }
    unfold aom_power. rewrite fsum_add, <- cconj_fsum.
    rewrite (fsum_ext _ (fun m => cconj (X m) * aom_rate cadd cneg center split dir kappa S Ds true m x)) by (intros m Hm; unfold X; by rewrite rate_lem).
    rewrite E, !cconj_mul, HW, (conj_opp C_herm ci : cconj (- ci) = - cconj ci), cconj_ci, cconj_cre. ring.
  Qed.
End proofs.
