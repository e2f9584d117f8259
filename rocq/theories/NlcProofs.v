(** Proofs about the nonlinear crystal. *)
From Coq Require Import Reals Lra.
From stdpp Require Import base tactics list numbers gmap.
From stdpp Require Import list.
From Verif Require Import Py Fld Herm SigModel OdeModel OdeSpec OdeProofs OdeProofs2 NlcModel NlcSpec.

Section proofs.
  Context {B Q F : Type} `{Countable B} `{Countable Q}.
  Local Open Scope fld_scope.
  Add Field FN : (f_theory C_fld).
  Context (qadd qsub : Q -> Q -> Q) (F_items : Q -> list (F * Z)) (n : Q -> Z).
  Notation nk := (@nkey B Q).
  Notation two := (1 + 1 : C_fld).
  Lemma two_neq : two <> 0.
  Proof. intros [= E]. lra. Qed.
  Context (g : R) (S : list (B * Q)) (ks outs : list nk).
  Context (Hks : both S ks) (Houts : both S outs) (HS : NoDup S).
  Context (Hn : forall s, s ∈ S -> base_multiple F_items s.2 = Ok (n s.2)).
  Context (Hcomm : forall a b, qadd a b = qadd b a).
  Context (Hsub : forall a b c, qsub a b = c <-> a = qadd c b).

  (** * the terms *)
  Definition gain_of (k1 k2 : nk) : C_fld :=
    let kto := key_to qadd qsub k1 k2 in
    if decide (k1 = k2) then cZ (n kto.2.2) * Ggain g k1.1 / two else cZ (n kto.2.2) * Ggain g k1.1.
  Definition term_of (kk : nk * nk) : list (nk * mono C_fld nk) :=
    if decide (kk.1.2.1 = kk.2.2.1 /\ (key_to qadd qsub kk.1 kk.2).2 ∈ S)
    then [(key_to qadd qsub kk.1 kk.2, (gain_of kk.1 kk.2, [kk.2; kk.1]))] else [].
  Definition pairs : list (nk * nk) := k1 ← ks; k2 ← ks; [(k1, k2)].
  Definition all_terms := pairs ≫= term_of.
  Lemma in_outs (k : nk) : k ∈ outs <-> k.2 ∈ S.
  Proof using Houts. destruct k as [l s], Houts as [_ Ho]. apply Ho. Qed.
  Lemma in_ks (k : nk) : k ∈ ks <-> k.2 ∈ S.
  Proof using Hks. destruct k as [l s], Hks as [_ Ho]. apply Ho. Qed.
  Lemma terms_ok : crystal_terms qadd qsub F_items g ks outs = Ok all_terms.
  Proof using Houts Hn.
    unfold crystal_terms, all_terms. fold pairs.
    enough (forall acc, mfor (pair_terms qadd qsub F_items g outs) pairs acc = Ok (acc ++ (pairs ≫= term_of))) as ->; [done|].
    induction pairs as [|[k1 k2] l IH]; intros acc; [simpl; by rewrite app_nil_r|].
    cbn [mfor]. unfold pair_terms at 1. rewrite bind_cons. unfold term_of at 1. cbn [fst snd].
    destruct (decide (k1.2.1 <> k2.2.1)) as [Hb|Hb].
    { rewrite (decide_False (P := _ /\ _)) by tauto. apply IH. }
    destruct (decide (key_to qadd qsub k1 k2 ∈ outs)) as [Ho|Ho]; rewrite in_outs in Ho.
    - rewrite (Hn _ Ho). rewrite IH, <- app_assoc. rewrite (decide_True (P := _ /\ _)); [done|]. split; [|done].
      destruct (decide (k1.2.1 = k2.2.1)); [done|contradiction].
    - rewrite (decide_False (P := _ /\ _)) by tauto. apply IH.
  Qed.
  Lemma elem_all_terms e : e ∈ all_terms <-> exists k1 k2, k1 ∈ ks /\ k2 ∈ ks /\ k1.2.1 = k2.2.1 /\ (key_to qadd qsub k1 k2).2 ∈ S /\
    e = (key_to qadd qsub k1 k2, (gain_of k1 k2, [k2; k1])).
  Proof using.
    clear Hks Houts HS Hn Hcomm Hsub outs F_items.
    unfold all_terms, pairs. rewrite elem_of_list_bind. split.
    - intros ([k1 k2] & He & Hp). apply elem_of_list_bind in Hp as (k1' & Hp & H1). apply elem_of_list_bind in Hp as (k2' & Hp & H2).
      apply elem_of_list_singleton in Hp. injection Hp as <- <-. unfold term_of in He. cbn [fst snd] in He.
      destruct (decide _) as [[Hb Ho]|]; [|set_solver]. apply elem_of_list_singleton in He. exists k1, k2. done.
    - intros (k1 & k2 & H1 & H2 & Hb & Ho & ->). exists (k1, k2). unfold term_of. cbn [fst snd]. rewrite decide_True by done.
      split; [set_solver|]. apply elem_of_list_bind. exists k1. split; [|done]. apply elem_of_list_bind. exists k2. split; [set_solver|done].
  Qed.
  (** * the dict *)
  Lemma dict_poly (x : nk -> C_fld) k (ts : list (nk * mono C_fld nk)) :
    poly_at x (default [] (terms_dict ts !! k)) = fsum (fun e => if decide (e.1 = k) then prod_at x e.2 else 0) ts.
  Proof using.
    clear Hks Houts HS Hn Hcomm Hsub S ks outs F_items n g qadd qsub.
    unfold terms_dict.
    enough (forall d, poly_at x (default [] (foldl (fun (d : gmap nk (list (mono C_fld nk))) e => <[e.1 := default [] (d !! e.1) ++ [e.2]]> d) d ts !! k)) =
      poly_at x (default [] (d !! k)) + fsum (fun e => if decide (e.1 = k) then prod_at x e.2 else 0) ts) as ->.
    { rewrite lookup_empty. cbn [default]. unfold poly_at at 1. cbn [fsum]. ring. }
    induction ts as [|e ts IH]; intros d; cbn [foldl fsum]; [ring|]. rewrite IH. destruct (decide (e.1 = k)) as [E|E].
    - subst k. rewrite lookup_insert. cbn [default]. unfold Datatypes.id. rewrite poly_at_app. unfold poly_at at 2. cbn [fsum]. ring.
    - rewrite lookup_insert_ne by done. ring.
  Qed.
  Lemma dict_keys (ts : list (nk * mono C_fld nk)) k lt : terms_dict ts !! k = Some lt -> (exists e, e ∈ ts /\ e.1 = k) /\ (forall t, t ∈ lt -> (k, t) ∈ ts).
  Proof using.
    clear Hks Houts HS Hn Hcomm Hsub S ks outs F_items n g qadd qsub.
    unfold terms_dict. revert lt. induction ts as [|e ts IH] using rev_ind; intros lt E; [cbn [foldl] in E; by rewrite lookup_empty in E|].
    rewrite foldl_app in E. cbn [foldl] in E. apply lookup_insert_Some in E as [[Ek E]|[Hne E]].
    - split; [exists e; split; [set_solver|done]|]. subst lt. intros t [Ht|Ht%elem_of_list_singleton]%elem_of_app.
      + destruct (foldl _ ∅ ts !! e.1) as [lt'|] eqn:E'; [|set_solver]. cbn [default] in Ht. rewrite Ek in E'. destruct (IH _ E') as [_ H'].
        apply elem_of_app. left. by apply H'.
      + subst t k. apply elem_of_app. right. destruct e. set_solver.
    - destruct (IH _ E) as [(e' & He' & Hk) H']. split; [exists e'; set_solver|]. intros t Ht. apply elem_of_app. left. by apply H'.
  Qed.
  Lemma dict_has (ts : list (nk * mono C_fld nk)) e : e ∈ ts -> exists lt, terms_dict ts !! e.1 = Some lt /\ e.2 ∈ lt.
  Proof using.
    clear Hks Houts HS Hn Hcomm Hsub S ks outs F_items n g qadd qsub.
    unfold terms_dict. induction ts as [|e' ts IH] using rev_ind; intros He; [set_solver|].
    rewrite foldl_app. cbn [foldl]. apply elem_of_app in He. destruct (decide (e'.1 = e.1)) as [E|E].
    - rewrite E, lookup_insert. eexists. split; [done|]. destruct He as [He|He%elem_of_list_singleton].
      + destruct (IH He) as (lt & -> & Hlt). cbn [default]. apply elem_of_app. by left.
      + subst e'. apply elem_of_app. right. set_solver.
    - rewrite lookup_insert_ne by done. destruct He as [He|He%elem_of_list_singleton]; [by apply IH|congruence].
  Qed.

  (** * well-formed *)
  Lemma both_bools (l : bool) s : s ∈ S -> (l, s) ∈ ks.
  Proof using Hks. destruct Hks as [_ Hk]. apply Hk. Qed.
  Lemma key_to_same l (s1 s2 : B * Q) : key_to qadd qsub (l, s1) (l, s2) = (l, (s1.1, qadd s1.2 s2.2)).
  Proof. unfold key_to. cbn [fst snd]. by rewrite decide_True. Qed.
  Lemma key_to_diff l (s1 s2 : B * Q) : key_to qadd qsub (l, s1) (negb l, s2) = (l, (s1.1, qsub s1.2 s2.2)).
  Proof. unfold key_to. cbn [fst snd]. rewrite decide_False; [done|]. by destruct l. Qed.
  (** each process appears in all of its forms *)
  Lemma sum_term l s1 s2 s3 : s1 ∈ S -> s2 ∈ S -> s3 ∈ S -> sums_to qadd s1 s2 s3 ->
    ((l, s3), (gain_of (l, s1) (l, s2), [(l, s2); (l, s1)])) ∈ all_terms.
  Proof using Hks.
    intros H1 H2 H3 [Hb ->]. apply elem_all_terms. exists (l, s1), (l, s2). rewrite key_to_same. cbn [fst snd].
    split_and!; [by apply both_bools..|done|done|done].
  Qed.
  Lemma diff_term l s1 s2 s3 : s1 ∈ S -> s2 ∈ S -> s3 ∈ S -> sums_to qadd s1 s2 s3 ->
    ((l, s1), (gain_of (l, s3) (negb l, s2), [(negb l, s2); (l, s3)])) ∈ all_terms.
  Proof using Hks Hsub.
    intros H1 H2 H3 [Hb E]. apply elem_all_terms. exists (l, s3), (negb l, s2). rewrite key_to_diff. cbn [fst snd].
    assert (qsub s3.2 s2.2 = s1.2) as ->. { apply Hsub. by rewrite E. }
    assert ((s3.1, s1.2) = s1) as -> by (rewrite E; by destruct s1).
    split_and!; [by apply both_bools..|rewrite E; cbn; done|done|done].
  Qed.
  Lemma sums_comm (s1 s2 s3 : B * Q) : sums_to qadd s1 s2 s3 -> sums_to qadd s2 s1 s3.
  Proof using Hcomm. intros [Hb ->]. split; [done|]. rewrite Hcomm. by rewrite Hb. Qed.
  Lemma takes_part_to l s : takes_part qadd S s -> exists e, e ∈ all_terms /\ e.1 = (l, s).
  Proof using All.
    intros (s1 & s2 & s3 & H1 & H2 & H3 & Hs & [-> | [-> | ->]]).
    - eexists. split; [by apply (diff_term l s1 s2 s3)|done].
    - eexists. split; [apply (diff_term l s2 s1 s3); [done..|by apply sums_comm]|done].
    - eexists. split; [by apply (sum_term l s1 s2 s3)|done].
  Qed.
  Lemma takes_part_from l s : takes_part qadd S s -> exists e k2, e ∈ all_terms /\ e.2.2 = [k2; (l, s)].
  Proof using All.
    intros (s1 & s2 & s3 & H1 & H2 & H3 & Hs & [-> | [-> | ->]]).
    - eexists _, _. split; [by apply (sum_term l s1 s2 s3)|done].
    - eexists _, _. split; [apply (sum_term l s2 s1 s3); [done..|by apply sums_comm]|done].
    - eexists _, _. split; [by apply (diff_term l s1 s2 s3)|done].
  Qed.
  Lemma term_parts e : e ∈ all_terms -> takes_part qadd S e.1.2 /\ Forall (fun k => takes_part qadd S k.2) e.2.2 /\ exists k1 k2, e.2.2 = [k2; k1].
  Proof using All.
    intros ([l1 s1] & [l2 s2] & H1 & H2 & Hb & Ho & ->)%elem_all_terms. rewrite in_ks in H1, H2. cbn [fst snd] in *.
    destruct (decide (l2 = l1)) as [->|Hl].
    - rewrite key_to_same in *. cbn [fst snd] in *.
      assert (sums_to qadd s1 s2 (s1.1, qadd s1.2 s2.2)) as Hs by done.
      split_and!; [| |by eexists _, _]; [|repeat constructor]; cbn [snd];
        exists s1, s2, (s1.1, qadd s1.2 s2.2); auto 10.
    - assert (l2 = negb l1) as -> by (destruct l1, l2; done). rewrite key_to_diff in *. cbn [fst snd] in *.
      set (s := (s1.1, qsub s1.2 s2.2)) in *.
      assert (sums_to qadd s s2 s1) as Hs.
      { split; [done|]. unfold s. cbn [fst snd]. destruct s1 as [b q]. cbn [fst snd]. f_equal. by apply Hsub. }
      split_and!; [| |by eexists _, _]; [|repeat constructor]; cbn [snd]; exists s, s2, s1; auto 10.
  Qed.
  Lemma crystal_wf N pks : pks ≡ₚ elements (pks_grab (terms_dict all_terms)) ->
    well_formed (crystal_ode N pks all_terms) (pair false) /\ (forall l s, (l, s) ∈ pks <-> takes_part qadd S s).
  Proof using All.
    intros Hp.
    assert (forall k : nk, k ∈ pks -> takes_part qadd S k.2) as Hk.
    { intros k. rewrite Hp, elem_of_elements. unfold pks_grab. rewrite elem_of_list_to_set, elem_of_list_bind.
      intros ([p lt] & Hk & Hm). apply elem_of_map_to_list in Hm. destruct (dict_keys _ _ _ Hm) as [(e & He & Ee) Hlt].
      apply elem_of_cons in Hk as [->|Hk].
      - cbn [fst]. rewrite <- Ee. by apply term_parts.
      - apply elem_of_list_bind in Hk as (t & Hk & Ht). apply Hlt, term_parts in Ht as (_ & Hf & _). cbn [fst snd] in *.
        rewrite Forall_forall in Hf. by apply Hf. }
    assert (forall l s, (l, s) ∈ pks <-> takes_part qadd S s) as Hiff.
    { intros l s. split; [apply (Hk (l, s))|]. intros Ht. rewrite Hp, elem_of_elements.
      unfold pks_grab. rewrite elem_of_list_to_set, elem_of_list_bind.
      destruct (takes_part_to l s Ht) as (e & He & Ee). destruct (dict_has _ _ He) as (lt & Hlt & _).
      exists (e.1, lt). split; [rewrite <- Ee; cbn [fst]; apply elem_of_list_here|]. by apply elem_of_map_to_list. }
    split; [|done]. split_and!.
    - done.
    - intros [l s] Hpk. apply Hiff in Hpk. cbn [crystal_ode od_in od_out]. split.
      + unfold terms_in. apply elem_of_list_to_map_1'.
        * intros y Hy. apply elem_of_list_bind in Hy as (e & Hy & He). destruct (term_parts e He) as (_ & _ & k1 & k2 & E).
          destruct e as [kt [gg l']]. cbn [fst snd] in E, Hy. subst l'. apply elem_of_list_singleton in Hy. congruence.
        * destruct (takes_part_from l s Hpk) as (e & k2 & He & E). apply elem_of_list_bind. exists e. split; [|done].
          destruct e as [kt [gg l']]. cbn [fst snd] in *. subst l'. by apply elem_of_list_singleton.
      + destruct (takes_part_to l s Hpk) as (e & He & E). unfold terms_out.
        exists (Some (true, (l, s))). apply elem_of_list_to_map_1'.
        * intros y (e' & E' & _)%elem_of_list_fmap. injection E' as E1 ->. by rewrite <- E1.
        * apply elem_of_list_fmap. exists e. split; [|done]. destruct e as [kt t]. cbn [fst] in *. by subst kt.
    - intros p q _ _ [= E]. done.
    - intros p q o _ _ H1 H2. cbn [crystal_ode od_out] in *. unfold terms_out in *.
      apply elem_of_list_to_map_2, elem_of_list_fmap in H1 as (e1 & E1 & _). apply elem_of_list_to_map_2, elem_of_list_fmap in H2 as (e2 & E2 & _).
      congruence.
  Qed.
End proofs.
