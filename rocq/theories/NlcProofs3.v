(** Proofs about the nonlinear crystal: when energy is kept, what is blocked, what raises. *)
From Coq Require Import Reals Lra.
From stdpp Require Import base tactics list numbers gmap.
From stdpp Require Import list.
From Verif Require Import Py Fld Herm SigModel SigProofs OdeModel OdeSpec OdeProofs OdeProofs2 OdeProofs3 OdeFinal NoiProofs3 ElecProofs NlcModel NlcSpec NlcProofs NlcProofs2.

Section only.
  Context {K : fld} {P PK : Type} `{Countable P} `{Countable PK}.
  Local Open Scope fld_scope.
  Context (c : ode_spec (K := K) (P := P) (PK := PK)) (moved : K -> K -> bool).
  (** couplings go from inputs in in_map to outputs in out_map only *)
  Definition only_maps (ob : ode_obj (K := K) (PK := PK)) : Prop :=
    (forall i o v, b_solution ob !! (i, o) = Some v -> (exists p, od_in c !! p = Some i) /\ (exists q, od_out c !! q = Some (Some o))) /\
    (forall o v, b_inj ob !! o = Some v -> exists q, od_out c !! q = Some (Some o)).
  Lemma init_only : only_maps (obj_init c).
  Proof.
    split; [|intros o v E; cbn [obj_init b_inj] in E; by rewrite lookup_empty in E].
    intros i o v E. cbn [obj_init b_solution] in E. apply dict_of_inv, elem_of_list_omap in E as ([p i'] & Hp & E). cbn [fst snd] in E.
    apply elem_of_map_to_list in Hp. destruct (od_out c !! p) as [[o'|]|] eqn:Eo; cbn in E; [|done..]. injection E as -> -> <-.
    split; by eexists.
  Qed.
  Lemma gen_only ob sv ob' : only_maps ob -> generate_solution c moved ob sv = Ok ob' -> only_maps ob'.
  Proof.
    intros Hob. unfold generate_solution. destruct (mapM (fun pk => od_in c !! pk) (od_pks c)) as [ins|] eqn:Ei; [|done].
    destruct (forallb _ ins); [by intros [= <-]|]. cbv zeta.
    destruct (mapM (M := option) (fun pk => od_out c !! pk) (od_pks c)) as [outs|] eqn:Eo; [|done]. intros [= <-].
    apply mapM_Some in Ei. apply mapM_Some in Eo.
    assert (forall j i, ins !! j = Some i -> exists p, od_in c !! p = Some i) as Hi.
    { intros j i Ej. destruct (Forall2_lookup_r _ _ _ _ _ Ei Ej) as (p & _ & E). by exists p. }
    assert (forall j o, outs !! j = Some (Some o) -> exists q, od_out c !! q = Some (Some o)) as Ho.
    { intros j o Ej. destruct (Forall2_lookup_r _ _ _ _ _ Eo Ej) as (p & _ & E). by exists p. }
    split; cbn [b_solution b_inj].
    - intros i o v E. apply dict_of_inv, elem_of_list_bind in E as (io & E & _). apply elem_of_list_bind in E as (ie & E & _).
      destruct (ins !! ie.1) as [i'|] eqn:E1; [|set_solver]. destruct (outs !! io) as [[o'|]|] eqn:E2; [|set_solver..].
      apply elem_of_list_singleton in E. injection E as -> -> _. split; [by eapply Hi|by eapply Ho].
    - intros o v E. apply dict_of_inv, elem_of_list_bind in E as (io & E & _). destruct (outs !! io) as [[o'|]|] eqn:E2; [|set_solver..].
      apply elem_of_list_singleton in E. injection E as -> _. by eapply Ho.
  Qed.
  Lemma updates_only vs ob : ode_updates c moved vs = Ok ob -> only_maps ob.
  Proof.
    unfold ode_updates. generalize init_only. generalize (obj_init c). induction vs as [|sv vs IH]; intros ob0 H0b; cbn [mfor]; [by intros [= <-]|].
    destruct (generate_solution c moved ob0 sv) as [ob1|e] eqn:E; [|done]. apply IH. by eapply gen_only.
  Qed.
End only.

Section final.
  Context {B Q F : Type} `{Countable B} `{Countable Q}.
  Local Open Scope fld_scope.
  Add Field FN : (f_theory C_fld).
  Context (qadd qsub : Q -> Q -> Q) (F_items : Q -> list (F * Z)) (n : Q -> Z).
  Notation nk := (@nkey B Q).
  Notation two := (1 + 1 : C_fld).
  Context (g : R) (S : list (B * Q)) (ks outs : list nk).
  Context (Hks : both S ks) (Houts : both S outs) (HS : NoDup S).
  Context (Hn : forall s, s ∈ S -> base_multiple F_items s.2 = Ok (n s.2)).
  Context (Hcomm : forall a b, qadd a b = qadd b a).
  Context (Hsub : forall a b c, qsub a b = c <-> a = qadd c b).
  Lemma setup_lem : exists ts, crystal_terms qadd qsub F_items g ks outs = Ok ts /\
    (forall x l s, s ∈ S -> poly_at x (default [] (terms_dict ts !! (l, s))) = field_rate qadd n g S l s x) /\
    (forall N pks, pks ≡ₚ elements (pks_grab (terms_dict ts)) ->
      well_formed (crystal_ode N pks ts) (pair false) /\ forall l s, (l, s) ∈ pks <-> takes_part qadd S s).
  Proof using All.
    exists (all_terms qadd qsub n g S ks). split_and!.
    - by apply terms_ok.
    - intros x l s Hs. by apply (rate_lem qadd qsub).
    - intros N pks Hp. by eapply crystal_wf.
  Qed.
  Lemma blocked_lem N pks ts moved vs ob l s : crystal_terms qadd qsub F_items g ks outs = Ok ts ->
    ode_updates (crystal_ode N pks ts) moved vs = Ok ob -> ~ takes_part qadd S s ->
    inj_of ob (true, (l, s)) = 0 /\ forall i, edge_of ob i (true, (l, s)) = 0 /\ edge_of ob (false, (l, s)) i = 0.
  Proof using All.
    rewrite (terms_ok qadd qsub F_items n g S ks outs Houts Hn). intros [= <-] Hu Ht.
    apply updates_only in Hu as [Hs Hi].
    assert (forall q, od_out (crystal_ode N pks (all_terms qadd qsub n g S ks)) !! q = Some (Some (true, (l, s))) -> False) as Ho.
    { intros q E. cbn [crystal_ode od_out] in E. unfold terms_out in E. apply elem_of_list_to_map_2, elem_of_list_fmap in E as (e & E & He).
      apply Ht. eapply term_parts in He as [He _]; [|done..]. destruct e as [kt t]. cbn [fst snd] in *. assert (kt = (l, s)) as -> by congruence. done. }
    assert (forall p, od_in (crystal_ode N pks (all_terms qadd qsub n g S ks)) !! p = Some (false, (l, s)) -> False) as Hin.
    { intros q E. cbn [crystal_ode od_in] in E. unfold terms_in in E. apply elem_of_list_to_map_2, elem_of_list_bind in E as (e & E & He).
      apply Ht. eapply term_parts in He as (_ & Hf & k1 & k2 & E2); [|done..]. destruct e as [kt [gg l']]. cbn [fst snd] in *. subst l'.
      apply elem_of_list_singleton in E. rewrite Forall_forall in Hf. specialize (Hf k1). assert (k1 = (l, s)) as -> by congruence. apply Hf. set_solver. }
    split_and!.
    - unfold inj_of, sol_get. destruct (b_inj ob !! _) as [v|] eqn:E; [|done]. destruct (Hi _ _ E) as [q Hq]. by destruct (Ho q).
    - intros i. unfold edge_of. split.
      + destruct (b_solution ob !! _) as [v|] eqn:E; [|done]. destruct (Hs _ _ _ E) as [_ [q Hq]]. by destruct (Ho q).
      + destruct (b_solution ob !! _) as [v|] eqn:E; [|done]. destruct (Hs _ _ _ E) as [[q Hq] _]. by destruct (Hin q).
  Qed.
  Context (Hadd : forall s1 s2 s3, s1 ∈ S -> s2 ∈ S -> s3 ∈ S -> sums_to qadd s1 s2 s3 -> n s3.2 = (n s1.2 + n s2.2)%Z).
  Lemma energy_lem ts x : crystal_terms qadd qsub F_items g ks outs = Ok ts -> conj_fields S x ->
    power_rate S (fun k => default [] (terms_dict ts !! k)) x =
    (ci * cre g * mixing qadd n different S x + cconj (ci * cre g * mixing qadd n different S x)) / two.
  Proof using All.
    rewrite (terms_ok qadd qsub F_items n g S ks outs Houts Hn). intros [= <-] Hx. by eapply power_lem.
  Qed.
  Context (Hg : g <> 0%R) (Hpos : forall s, s ∈ S -> (0 < n s.2)%Z).
  Section witness.
    Context (s1 s2 s3 : B * Q) (H1 : s1 ∈ S) (H2 : s2 ∈ S) (H3 : s3 ∈ S) (Hs : sums_to qadd s1 s2 s3) (Hd : s1 <> s2).
    Definition wx (k : nk) : C_fld :=
      if decide (k.2 = s1 \/ k.2 = s2) then 1 else if decide (k.2 = s3) then (if k.1 then ci else - ci) else 0.
    Lemma wx_conj : conj_fields S wx.
    Proof using.
      intros s _. unfold wx. cbn [fst snd]. destruct (decide _); [by rewrite cconj_1|]. destruct (decide _); [by rewrite cconj_ci|].
      symmetry. exact (conj_0 C_herm).
    Qed.
    Lemma s13 : s3 <> s1.
    Proof using H1 H2 H3 Hs Hadd Hpos. intros ->. pose proof (Hadd _ _ _ H1 H2 H1 Hs). pose proof (Hpos _ H2). lia. Qed.
    Lemma s23 : s3 <> s2.
    Proof using H1 H2 H3 Hs Hadd Hpos. intros ->. pose proof (Hadd _ _ _ H1 H2 H2 Hs). pose proof (Hpos _ H1). lia. Qed.
    Lemma fsum3_delta (v : C_fld) a0 b0 c0 : a0 ∈ S -> b0 ∈ S -> c0 ∈ S ->
      fsum (fun a => fsum (fun b => fsum (fun c => if decide (a = a0 /\ b = b0 /\ c = c0) then v else 0) S) S) S = v.
    Proof using HS.
      intros Ha Hb Hc. transitivity (fsum (fun a => if decide (a = a0) then v else 0) S).
      - apply fsum_ext. intros a _. destruct (decide (a = a0)).
        + transitivity (fsum (fun b => if decide (b = b0) then v else 0) S).
          * apply fsum_ext. intros b _. destruct (decide (b = b0)).
            -- transitivity (fsum (fun c => if decide (c = c0) then v else 0) S).
               ++ apply fsum_ext. intros c _. destruct (decide (c = c0)); [by rewrite decide_True|by rewrite decide_False by tauto].
               ++ rewrite (fsum_delta c0 (fun _ => v)) by done. by rewrite decide_True.
            -- apply fsum_0. intros c _. by rewrite decide_False by tauto.
          * rewrite (fsum_delta b0 (fun _ => v)) by done. by rewrite decide_True.
        + apply fsum_0. intros b _. apply fsum_0. intros c _. by rewrite decide_False by tauto.
      - rewrite (fsum_delta a0 (fun _ => v)) by done. by rewrite decide_True.
    Qed.
    Lemma wx_mixing : mixing qadd n different S wx = two * (cZ (n s3.2) * - ci).
    Proof using All.
      pose proof s13 as D13. pose proof s23 as D23. pose proof (sums_comm qadd Hcomm _ _ _ Hs) as Hs'.
      pose proof (Hpos _ H1) as P1. pose proof (Hpos _ H2) as P2. pose proof (Hadd _ _ _ H1 H2 H3 Hs) as A3.
      assert (wx (true, s1) = 1) as W1 by (unfold wx; cbn [fst snd]; rewrite decide_True; [done|by left]).
      assert (wx (true, s2) = 1) as W2 by (unfold wx; cbn [fst snd]; rewrite decide_True; [done|by right]).
      assert (wx (true, s3) = ci) as W3.
      { unfold wx; cbn [fst snd]. rewrite decide_False by tauto. by rewrite decide_True. }
      assert (forall s, s <> s1 -> s <> s2 -> s <> s3 -> wx (true, s) = 0) as W0.
      { intros s E1 E2 E3. unfold wx; cbn [fst snd]. rewrite decide_False by tauto. by rewrite decide_False. }
      set (v := cZ (n s3.2) * - ci). replace (two * v) with (v + v) by ring.
      transitivity (fsum (fun a => fsum (fun b => fsum (fun c => if decide (a = s1 /\ b = s2 /\ c = s3) then v else 0) S) S) S +
        fsum (fun a => fsum (fun b => fsum (fun c => if decide (a = s2 /\ b = s1 /\ c = s3) then v else 0) S) S) S); [|by rewrite !fsum3_delta by done].
      rewrite <- fsum3_add.
      unfold mixing. apply fsum3_ext. intros a b c Ha Hb Hc. unfold different.
      destruct (decide (a = s1 /\ b = s2 /\ c = s3)) as [(-> & -> & ->)|N1].
      { rewrite decide_True by done. rewrite (decide_False (P := _ /\ _)) by tauto. rewrite bool_decide_eq_true_2 by done.
        rewrite W1, W2, W3, cconj_ci. unfold v. ring. }
      destruct (decide (a = s2 /\ b = s1 /\ c = s3)) as [(-> & -> & ->)|N2].
      { rewrite decide_True by done. rewrite bool_decide_eq_true_2 by congruence. rewrite W1, W2, W3, cconj_ci. unfold v. ring. }
      destruct (decide (sums_to qadd a b c)) as [Hab|Hab]; [|ring].
      destruct (decide (a = b)) as [Eab|Eab]; [rewrite bool_decide_eq_false_2 by tauto; ring|]. rewrite bool_decide_eq_true_2 by done.
      pose proof (Hadd _ _ _ Ha Hb Hc Hab) as Ac.
      assert (forall s, {s = s1} + {s = s2} + {s = s3} + {s <> s1 /\ s <> s2 /\ s <> s3}) as cl.
      { intros s. destruct (decide (s = s1)); [by left; left; left|]. destruct (decide (s = s2)); [by left; left; right|].
        destruct (decide (s = s3)); [by left; right|by right]. }
      assert (wx (true, a) = 0 \/ wx (true, b) = 0 \/ wx (true, c) = 0) as [E|[E|E]].
      { destruct (cl a) as [[[->| ->]| ->]|(?&?&?)]; [..|left; by apply W0];
        (destruct (cl b) as [[[->| ->]| ->]|(?&?&?)]; [..|right; left; by apply W0]);
        (destruct (cl c) as [[[->| ->]| ->]|(?&?&?)]; [..|right; right; by apply W0]); try lia; try done; exfalso; tauto. }
      all: rewrite E, ?(conj_0 C_herm : cconj 0 = 0); ring.
    Qed.
    Lemma wx_power ts : crystal_terms qadd qsub F_items g ks outs = Ok ts -> power_rate S (fun k => default [] (terms_dict ts !! k)) wx <> 0.
    Proof using All.
      intros Hts Hall. rewrite (energy_lem ts), wx_mixing in Hall by (done || apply wx_conj).
      rewrite !cconj_mul, cconj_add, cconj_1, !cconj_cre, cconj_ci, (conj_opp C_herm ci : cconj (- ci) = - cconj ci), cconj_ci in Hall.
      assert (two * (cre g * cZ (n s3.2)) = 0) as E.
      { rewrite <- Hall. replace (cconj (cZ (n s3.2))) with (cZ (n s3.2)) by (symmetry; apply cconj_cre).
        transitivity (- (ci * ci) * two * (cre g * cZ (n s3.2))); [rewrite ci_sq; ring|field; apply two_neq]. }
      revert E. apply fmul_neq_0; [apply two_neq|]. apply fmul_neq_0; [by apply cre_neq_0|]. apply cre_neq_0.
      pose proof (Hpos _ H3). apply not_0_IZR. lia.
    Qed.
  End witness.
  Lemma iff_lem ts : crystal_terms qadd qsub F_items g ks outs = Ok ts ->
    (forall x, conj_fields S x -> power_rate S (fun k => default [] (terms_dict ts !! k)) x = 0) <->
    (forall s1 s2 s3, s1 ∈ S -> s2 ∈ S -> s3 ∈ S -> sums_to qadd s1 s2 s3 -> s1 = s2).
  Proof using All.
    intros Hts. split.
    - intros Hall s1 s2 s3 H1 H2 H3 Hs. destruct (decide (s1 = s2)) as [|Hd]; [done|]. exfalso.
      by apply (wx_power s1 s2 s3 H1 H2 H3 Hs Hd ts Hts), Hall, wx_conj.
    - intros Hd x Hx. rewrite (energy_lem ts x Hts Hx).
      assert (mixing qadd n different S x = 0) as ->.
      { unfold mixing. apply fsum_0. intros a Ha. apply fsum_0. intros b Hb. apply fsum_0. intros c Hc.
        destruct (decide (sums_to qadd a b c)) as [Hs|]; [|done]. rewrite (Hd a b c) by done. unfold different. by rewrite bool_decide_eq_false_2 by tauto. }
      replace (ci * cre g * 0) with (0 : C_fld) by ring. rewrite (conj_0 C_herm : cconj 0 = 0). field. apply two_neq.
  Qed.
End final.

Section raises.
  Context {B Q F : Type} `{Countable B} `{Countable Q}.
  Context (qadd qsub : Q -> Q -> Q) (F_items : Q -> list (F * Z)) (g : R) (ks outs : list (@nkey B Q)).
  Lemma mfor_raises {A X} (f : A -> X -> res A) (e : exn) (l : list X) x0 : (forall a x e', x ∈ l -> f a x = Err e' -> e' = e) ->
    x0 ∈ l -> (forall a, f a x0 = Err e) -> forall a, mfor f l a = Err e.
  Proof.
    induction l as [|x l IH]; intros Hf H0l H0f a; [set_solver|]. cbn [mfor]. destruct (f a x) as [a'|e'] eqn:E.
    - apply elem_of_cons in H0l as [->|H0l]; [by rewrite H0f in E|]. apply IH; [|done|done]. intros b y e' Hy. apply Hf. by right.
    - f_equal. eapply Hf; [|exact E]. by left.
  Qed.
  Lemma raises_lem k1 k2 : k1 ∈ ks -> k2 ∈ ks -> k1.2.1 = k2.2.1 -> key_to qadd qsub k1 k2 ∈ outs ->
    (forall k, k ∈ outs -> F_items k.2.2 <> []) -> (1 < length (F_items (key_to qadd qsub k1 k2).2.2))%nat ->
    crystal_terms qadd qsub F_items g ks outs = Err RuntimeError.
  Proof.
    intros H1 H2 Hb Ho Hne Hlen. unfold crystal_terms. apply (mfor_raises _ RuntimeError _ (k1, k2)).
    - intros a [k k'] e _. unfold pair_terms. destruct (decide _); [done|]. destruct (decide _) as [Hk|]; [|done]. specialize (Hne _ Hk).
      unfold base_multiple. destruct (F_items _) as [|[f m] [|f2 r]]; [done|done|]. by intros [= <-].
    - apply elem_of_list_bind. exists k1. split; [|done]. apply elem_of_list_bind. exists k2. split; [set_solver|done].
    - intros a. unfold pair_terms. rewrite (decide_False (P := _ <> _)) by tauto. rewrite decide_True by done. unfold base_multiple.
      destruct (F_items _) as [|[f m] [|f2 r]]; cbn in Hlen; [lia|lia|done].
  Qed.
End raises.

(** examples: the frequencies are multiples of one *)
Definition ex_keys (S : list (unit * Z)) : list (@nkey unit Z) := s ← S; [(true, s); (false, s)].
Definition ex_items (q : Z) : list (unit * Z) := [((), q)].
Lemma ex_both S : NoDup S -> both S (ex_keys S).
Proof.
  intros HS. split; [by apply (NoDup_both true)|]. intros l s. unfold ex_keys. rewrite elem_of_list_bind. split.
  - intros (s' & Hs & Hs'). set_solver.
  - intros Hs. exists s. split; [|done]. destruct l; set_solver.
Qed.
Lemma ex_sub (a b c : Z) : (a - b)%Z = c <-> a = (c + b)%Z.
Proof. lia. Qed.
Lemma ex_terms g S : NoDup S -> exists ts, crystal_terms Z.add Z.sub ex_items g (ex_keys S) (ex_keys S) = Ok ts.
Proof.
  intros HS. destruct (setup_lem Z.add Z.sub ex_items (fun q => q) g S (ex_keys S) (ex_keys S)) as (ts & E & _); [by apply ex_both..|done|done|lia|apply ex_sub|by exists ts].
Qed.
Definition ex_three : list (unit * Z) := [((), 1%Z); ((), 2%Z); ((), 3%Z)].
Lemma ex_three_nodup : NoDup ex_three.
Proof. repeat constructor; set_solver. Qed.
Lemma energy_refuted_lem : exists ts (x : @nkey unit Z -> C_fld),
  crystal_terms Z.add Z.sub ex_items 1 (ex_keys ex_three) (ex_keys ex_three) = Ok ts /\ conj_fields ex_three x /\ power_rate ex_three (fun k => default [] (terms_dict ts !! k)) x <> (0 : C_fld)%F.
Proof.
  pose proof ex_three_nodup as Hnd. destruct (ex_terms 1 ex_three Hnd) as [ts Hts].
  pose proof (ex_both _ Hnd) as Hb.
  assert (forall s, s ∈ ex_three -> base_multiple ex_items s.2 = Ok s.2) as Hn by done.
  assert (forall s1 s2 s3, s1 ∈ ex_three -> s2 ∈ ex_three -> s3 ∈ ex_three -> sums_to Z.add s1 s2 s3 -> s3.2 = (s1.2 + s2.2)%Z) as Hadd.
  { intros s1 s2 s3 _ _ _ [_ ->]. done. }
  assert (((), 1%Z) ∈ ex_three /\ ((), 2%Z) ∈ ex_three /\ ((), 3%Z) ∈ ex_three) as (M1 & M2 & M3) by (split_and!; unfold ex_three; repeat constructor).
  assert (forall s, s ∈ ex_three -> (0 < s.2)%Z) as Hp.
  { intros s. unfold ex_three. rewrite !elem_of_cons. intros [->|[->|[->|Hx]]]; cbn; [lia..|set_solver]. }
  exists ts, (wx ((), 1%Z) ((), 2%Z) ((), 3%Z)). split; [done|]. split; [apply wx_conj|].
  by apply (wx_power Z.add Z.sub ex_items (fun q => q) 1 ex_three (ex_keys ex_three) (ex_keys ex_three) Hb Hb Hnd Hn Z.add_comm ex_sub Hadd R1_neq_R0 Hp ((), 1%Z) ((), 2%Z) ((), 3%Z) M1 M2 M3).
Qed.
Lemma nlc_meets_lem : both ex_three (ex_keys ex_three) /\ NoDup ex_three /\
  (forall s, s ∈ ex_three -> base_multiple ex_items s.2 = Ok s.2) /\ (forall a b c : Z, (a - b)%Z = c <-> a = (c + b)%Z) /\
  takes_part Z.add ex_three ((), 3%Z) /\ ~ takes_part Z.add (((), 7%Z) :: ex_three) ((), 7%Z).
Proof.
  pose proof ex_three_nodup as Hnd. split_and!; [by apply ex_both|done|done|apply ex_sub| |].
  - exists ((), 1%Z), ((), 2%Z), ((), 3%Z). split_and!; [by repeat constructor..|by right; right].
  - intros (s1 & s2 & s3 & H1 & H2 & H3 & [_ E] & Hs).
    assert (forall s, s ∈ ((), 7%Z) :: ex_three -> (s.2 = 7 \/ s.2 = 1 \/ s.2 = 2 \/ s.2 = 3)%Z) as Hc.
    { intros s. unfold ex_three. rewrite !elem_of_cons. intros [->|[->|[->|[->|Hx]]]]; cbn; [lia..|set_solver]. }
    apply Hc in H1, H2, H3. rewrite E in H3. cbn in H3. destruct Hs as [<-|[<-|<-]]; cbn in *; [lia|lia|]. injection E as E. lia.
Qed.
