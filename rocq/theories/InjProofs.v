(** Proofs about the coupling injections. *)
From stdpp Require Import base tactics list numbers gmap fin_sets.
From Coq Require Import QArith Qcanon.
From Verif Require Import Fld Py InjModel InjSpec.
Local Open Scope fld_scope.

Section proofs.
  Context {K : fld} {P Q : Type} `{Countable P} `{Countable Q}.
  Add Field FFinj : (f_theory K).
  Notation N := (P * Q)%type.
  Notation sol := (gmap N K).
  Notation vfun := (sol -> K).
  Context (big eps : K).
  Notation entry1 X := (X * (vfun * list N))%type.

  (** ** function lists *)
  Section tab.
    Context {X : Type} `{Countable X}.
    Definition at_ (L : list (entry1 X)) (l : X) : list vfun :=
      (fun e => e.2.1) <$> filter (fun e => e.1 = l) L.
    Definition msum (x : sol) (L : list (entry1 X)) (l : X) : K :=
      fsum (fun e => if decide (e.1 = l) then e.2.1 x else 0) L.
    Lemma at_sum x L l : fsum (fun f => f x) (at_ L l) = msum x L l.
    Proof.
      unfold at_, msum. induction L as [|e L IH]; [done|].
      rewrite filter_cons. cbn [fsum]. destruct (decide (e.1 = l)); rewrite ?fmap_cons; cbn [fsum]; rewrite IH; [done|ring].
    Qed.
    Lemma fl_lookup (L : list (entry1 X)) : forall m l, foldl fl_app m L !! l =
      match at_ L l with [] => m !! l | fs => Some (default [] (m !! l) ++ fs) end.
    Proof.
      unfold at_. induction L as [|e L IH]; intros m l; [done|]. cbn [foldl].
      rewrite IH, filter_cons. unfold fl_app. destruct (decide (e.1 = l)) as [<-|Hne]; rewrite ?fmap_cons.
      - rewrite lookup_insert. destruct (_ <$> filter _ L) as [|f fs]; [done|]. cbn [default from_option id]. by rewrite <- app_assoc.
      - by rewrite lookup_insert_ne.
    Qed.
    Lemma fl_ok (L : list (entry1 X)) l : foldl fl_app ∅ L !! l =
      match at_ L l with [] => None | fs => Some fs end.
    Proof. rewrite fl_lookup, lookup_empty. done. Qed.
    Lemma at_nil L l : at_ L l = [] -> forall e, e ∈ L -> e.1 <> l.
    Proof.
      unfold at_. intros Hn e He Hl. apply fmap_nil_inv in Hn.
      assert (e ∈ filter (fun e => e.1 = l) L) as Hc by (by apply elem_of_list_filter).
      rewrite Hn in Hc. by apply elem_of_nil in Hc.
    Qed.
    Lemma msum_none x L l : (forall e, e ∈ L -> e.1 = l -> e.2.1 x = 0) -> msum x L l = 0.
    Proof. intros Hz. apply fsum_0. intros e He. destruct (decide (e.1 = l)); [by apply Hz|done]. Qed.
  End tab.
  Lemma foldl_join {A B S} (f : S -> B -> S) (g : A -> list B) (l : list A) : forall s,
    foldl (fun m j => foldl f m (g j)) s l = foldl f s (mjoin (g <$> l)).
  Proof. induction l as [|a l IH]; intros s; simpl; [done|]. by rewrite IH, foldl_app. Qed.
  Definition all_edges (js : list (inj K P Q)) := mjoin (inj_edges big <$> js).
  Definition all_sources (js : list (inj K P Q)) := mjoin (inj_sources big eps <$> js).
  Lemma edge_funclist_eq js : edge_funclist big js = foldl fl_app ∅ (all_edges js).
  Proof. apply foldl_join. Qed.
  Lemma source_funclist_eq js : source_funclist big eps js = foldl fl_app ∅ (all_sources js).
  Proof. apply foldl_join. Qed.
  Lemma elem_all {B} (g : inj K P Q -> list B) js e : e ∈ mjoin (g <$> js) <-> exists j, j ∈ js /\ e ∈ g j.
  Proof.
    rewrite elem_of_list_join. setoid_rewrite elem_of_list_fmap. split.
    - intros (l & Hx & j & -> & Hj). eauto.
    - intros (j & Hj & Hx). eauto.
  Qed.
  Lemma sum_funcs_ok (x : sol) (fs : list vfun) : fs <> [] -> sum_funcs x fs = Some (fsum (fun f => f x) fs).
  Proof.
    destruct fs as [|f fs]; [done|]. intros _. simpl. f_equal.
    generalize (f x). induction fs as [|g fs IH]; intros v; simpl; [ring|]. rewrite IH. ring.
  Qed.

  (** ** values of the functions when a factor vanishes *)
  Lemma mult_func_eq (c : K) (l : list N) (x : sol) : mult_func c l x = c * foldr (fun n v => sget x n 0 * v) 1 l.
  Proof.
    unfold mult_func. revert c. induction l as [|n l IH]; intros c; simpl; [ring|]. rewrite IH. ring.
  Qed.
  Lemma mult_zero (l : list N) (x : sol) n : n ∈ l -> sget x n 0 = 0 -> foldr (fun n v => sget x n 0 * v) 1 l = 0.
  Proof.
    intros Hn Hz. induction l as [|m l IH]; [by apply elem_of_nil in Hn|]. simpl.
    apply elem_of_cons in Hn as [->|Hn]; [rewrite Hz; ring|]. rewrite IH by done. ring.
  Qed.
  Lemma div_eq (a b : K) : a / b = a * finv b.
  Proof. apply (Fdiv_def (f_theory K)). Qed.
  Lemma edge_zero (j : inj K P Q) (e : entry1 (N * N)) (x : sol) : e ∈ inj_edges big j -> (exists n, n ∈ e.2.2 /\ sget x n 0 = 0) -> e.2.1 x = 0.
  Proof.
    intros He (n & Hn & Hz). destruct j as [a b c|s c|a b c l|s c l|p1 p2 t c|p1 p2 t pn c f|p1 p2 t pns c f]; simpl in He.
    - apply elem_of_list_singleton in He as ->. by apply elem_of_nil in Hn.
    - by apply elem_of_nil in He.
    - apply elem_of_list_singleton in He as ->. simpl in *. rewrite mult_func_eq, (mult_zero l x n) by done. ring.
    - by apply elem_of_nil in He.
    - destruct (decide (p1 <> p2)); rewrite ?elem_of_cons, elem_of_nil in He;
        repeat destruct He as [->|He]; try done; simpl in *; apply elem_of_list_singleton in Hn as ->;
        unfold t_edge1, t_edge2; rewrite Hz; ring.
    - destruct (decide (p1 <> p2)); rewrite ?elem_of_cons, elem_of_nil in He;
        repeat destruct He as [->|He]; try done; simpl in *; apply elem_of_list_singleton in Hn as ->;
        unfold tn_edge1, tn_edge2; rewrite Hz, div_eq; ring.
    - destruct (decide (p1 <> p2)); rewrite ?elem_of_cons, elem_of_nil in He;
        repeat destruct He as [->|He]; try done; simpl in *; apply elem_of_list_singleton in Hn as ->;
        unfold ts_edge1, ts_edge2; rewrite Hz, div_eq; ring.
  Qed.
  Lemma source_zero (j : inj K P Q) (e : entry1 N) (x : sol) : e ∈ inj_sources big eps j -> (exists n, n ∈ e.2.2 /\ sget x n 0 = 0) -> e.2.1 x = 0.
  Proof.
    intros He (n & Hn & Hz). destruct j as [a b c|s c|a b c l|s c l|p1 p2 t c|p1 p2 t pn c f|p1 p2 t pns c f]; simpl in He.
    - by apply elem_of_nil in He.
    - apply elem_of_list_singleton in He as ->. by apply elem_of_nil in Hn.
    - by apply elem_of_nil in He.
    - apply elem_of_list_singleton in He as ->. simpl in *. rewrite mult_func_eq, (mult_zero l x n) by done. ring.
    - destruct (decide (p1 <> p2)); rewrite ?elem_of_cons, elem_of_nil in He;
        repeat destruct He as [->|He]; try done; simpl in *; rewrite !elem_of_cons, elem_of_nil in Hn.
      unfold t_source. destruct Hn as [->|[->|[]]]; rewrite Hz; ring.
    - destruct (decide (p1 <> p2)); rewrite ?elem_of_cons, elem_of_nil in He;
        repeat destruct He as [->|He]; try done; simpl in *; rewrite !elem_of_cons, elem_of_nil in Hn.
      unfold tn_source. destruct Hn as [->|[->|[]]]; rewrite Hz, div_eq; ring.
    - destruct (decide (p1 <> p2)); rewrite ?elem_of_cons, elem_of_nil in He;
        repeat destruct He as [->|He]; try done; simpl in *; rewrite !elem_of_cons, elem_of_nil in Hn.
      unfold ts_source. destruct Hn as [->|[->|[]]]; rewrite Hz, div_eq; ring.
  Qed.
  Lemma some_zero (x : sol) (l : list N) : ~ (forall n, n ∈ l -> sget x n 0 <> 0) -> exists n, n ∈ l /\ sget x n 0 = 0.
  Proof.
    intros Hn. destruct (decide (Exists (fun n => sget x n 0 = 0) l)) as [He|He].
    - by apply Exists_exists in He.
    - destruct Hn. intros n Hl Hz. apply He, Exists_exists. eauto.
  Qed.

  (** ** the generated vector and matrix *)
  Lemma source_vector_ok (js : list (inj K P Q)) inputs x v : NoDup inputs -> source_vector big eps js inputs x = Ok v ->
    forall t, v !! t = if decide (t ∈ inputs) then
        (if decide (msum x (all_sources js) t = 0) then None else Some (msum x (all_sources js) t)) else None.
  Proof.
    intros Hnd Hv. unfold source_vector in Hv. rewrite source_funclist_eq in Hv.
    refine (mfor_ind_ok _ (fun pre v => forall t, v !! t = if decide (t ∈ pre) then
        (if decide (msum x (all_sources js) t = 0) then None else Some (msum x (all_sources js) t)) else None) _ _ _ Hv _ _).
    - intros t. rewrite lookup_empty. by destruct (decide (t ∈ [])) as [Hc%elem_of_nil|].
    - intros pre a post s s' Hl IH Hb t. rewrite fl_ok in Hb.
      destruct (at_ (all_sources js) a) as [|f fs] eqn:Hat; [done|].
      rewrite sum_funcs_ok in Hb by done. rewrite <- Hat, at_sum in Hb. injection Hb as <-.
      assert (a ∉ pre) as Ha. { rewrite Hl in Hnd. apply NoDup_app in Hnd as (_ & Hd & _). intros Hc. apply (Hd a Hc). by left. }
      destruct (decide (t = a)) as [->|Hne].
      + rewrite (decide_True (P := a ∈ pre ++ [a])) by (apply elem_of_app; right; by apply elem_of_list_singleton).
        destruct (decide (msum x (all_sources js) a = 0)).
        * rewrite IH. by rewrite decide_False.
        * by rewrite lookup_insert.
      + assert ((if decide (msum x (all_sources js) a = 0) then s else <[a := msum x (all_sources js) a]> s) !! t = s !! t) as ->.
        { destruct (decide _); [done|]. by rewrite lookup_insert_ne. }
        rewrite IH. destruct (decide (t ∈ pre)) as [Hp|Hp].
        * by rewrite (decide_True (P := t ∈ pre ++ [a])) by (apply elem_of_app; by left).
        * rewrite (decide_False (P := t ∈ pre ++ [a])); [done|]. rewrite elem_of_app, elem_of_list_singleton. tauto.
  Qed.
  Lemma source_total (js : list (inj K P Q)) inputs x : (forall t, t ∈ inputs -> exists j e, j ∈ js /\ e ∈ inj_sources big eps j /\ e.1 = t) ->
    exists v, source_vector big eps js inputs x = Ok v.
  Proof.
    intros Hin. unfold source_vector. rewrite source_funclist_eq.
    destruct (mfor_ind (fun (v : gmap N K) pkto =>
            match foldl fl_app ∅ (all_sources js) !! pkto with
            | None => Err KeyError
            | Some fs => match sum_funcs x fs with
                         | None => Ok v
                         | Some val => Ok (if decide (val = 0) then v else <[pkto := val]> v)
                         end
            end) (fun _ _ => True) inputs ∅ I) as (v & Hv & _); [|eauto].
    intros pre a post s Hl _. rewrite fl_ok. destruct (at_ (all_sources js) a) as [|f fs] eqn:Hat.
    - exfalso. destruct (Hin a) as (j & e & Hj & He & Hea). { rewrite Hl. apply elem_of_app. right. by left. }
      apply (at_nil _ _ Hat e); [|done]. apply elem_all. eauto.
    - rewrite sum_funcs_ok by done. eauto.
  Qed.

  Definition mval (js : list (inj K P Q)) (bonds : gset (N * N)) (x : sol) l : K := if decide (l ∈ bonds) then 1 else msum x (all_edges js) l.
  Lemma edge_loop_ok (js : list (inj K P Q)) (bonds : gset (N * N)) links x M drop : NoDup links ->
    mfor (edge_step (edge_funclist big js) bonds x) links (∅, []) = Ok (M, drop) ->
    NoDup drop /\
    (forall l, l ∈ drop <-> l ∈ links /\ M !! l = None) /\
    (forall l, l ∉ links -> M !! l = None) /\
    (forall l, l ∈ links -> (l ∈ bonds -> msum x (all_edges js) l = 0) /\ default 0 (M !! l) = mval js bonds x l) /\
    (forall l, M !! l <> Some 0).
  Proof.
    intros Hnd Hm. rewrite edge_funclist_eq in Hm.
    cut ((fun r : gmap (N * N) K * list (N * N) => NoDup r.2 /\
      (forall l, l ∈ r.2 <-> l ∈ links /\ r.1 !! l = None) /\
      (forall l, l ∉ links -> r.1 !! l = None) /\
      (forall l, l ∈ links -> (l ∈ bonds -> msum x (all_edges js) l = 0) /\ default 0 (r.1 !! l) = mval js bonds x l) /\
      (forall l, r.1 !! l <> Some 0)) (M, drop)); [done|].
    refine (mfor_ind_ok _ (fun pre (r : gmap (N * N) K * list (N * N)) => NoDup r.2 /\
      (forall l, l ∈ r.2 <-> l ∈ pre /\ r.1 !! l = None) /\
      (forall l, l ∉ pre -> r.1 !! l = None) /\
      (forall l, l ∈ pre -> (l ∈ bonds -> msum x (all_edges js) l = 0) /\ default 0 (r.1 !! l) = mval js bonds x l) /\
      (forall l, r.1 !! l <> Some 0)) _ _ _ Hm _ _).
    - simpl. split_and!; [apply NoDup_nil_2| | | |]; intros l.
      + rewrite !elem_of_nil. tauto.
      + intros _. apply lookup_empty.
      + by intros ?%elem_of_nil.
      + by rewrite lookup_empty.
    - intros pre l0 post [M1 drop1] r' Hl (I1 & I2 & I3 & I4 & I5) Hb. simpl in *.
      assert (l0 ∉ pre) as Ha. { rewrite Hl in Hnd. apply NoDup_app in Hnd as (_ & Hd & _). intros Hc. apply (Hd l0 Hc). by left. }
      assert (forall l, l ∈ pre ++ [l0] <-> l ∈ pre \/ l = l0) as Hpre.
      { intros l. by rewrite elem_of_app, elem_of_list_singleton. }
      rewrite fl_ok in Hb. destruct (at_ (all_edges js) l0) as [|f fs] eqn:Hat.
      + destruct (decide (l0.2.2 = l0.1.2)); [|done].
        destruct (decide (l0 ∈ bonds)) as [Hbd|]; [|done]. injection Hb as <-. simpl.
        split_and!; [done| | | |]; intros l.
        * rewrite I2, Hpre. destruct (decide (l = l0)) as [->|Hne].
          -- rewrite lookup_insert. split; [tauto|]. by intros [_ ?].
          -- rewrite lookup_insert_ne by done. tauto.
        * rewrite Hpre. intros Hn. rewrite lookup_insert_ne by (intros ->; tauto). apply I3. tauto.
        * rewrite Hpre. intros [Hp| ->].
          -- rewrite lookup_insert_ne by (by intros ->). by apply I4.
          -- rewrite lookup_insert. split.
             ++ intros _. apply msum_none. intros e0 He Hel. by destruct (at_nil _ _ Hat e0 He).
             ++ unfold mval. by rewrite decide_True.
        * destruct (decide (l = l0)) as [->|Hne].
          -- rewrite lookup_insert. intros [= Hc]. by apply (f1_neq_0 (K := K)).
          -- rewrite lookup_insert_ne by done. apply I5.
      + destruct (decide (l0 ∈ bonds)) as [|Hbd]; [done|].
        rewrite sum_funcs_ok in Hb by done. rewrite <- Hat, at_sum in Hb.
        destruct (decide (msum x (all_edges js) l0 = 0)) as [Hz|Hnz]; injection Hb as <-; simpl.
        * split_and!.
          -- apply NoDup_app. split_and!; [done| |apply NoDup_singleton].
             intros l Hl' Hc%elem_of_list_singleton. subst. apply I2 in Hl'. tauto.
          -- intros l. rewrite elem_of_app, elem_of_list_singleton, I2, Hpre. split; [|tauto].
             intros [?| ->]; [tauto|]. split; [tauto|]. by apply I3.
          -- intros l. rewrite Hpre. intros Hn. apply I3. tauto.
          -- intros l. rewrite Hpre. intros [Hp| ->]; [by apply I4|]. split; [done|].
             rewrite I3 by done. unfold mval. rewrite decide_False by done. by rewrite Hz.
          -- done.
        * split_and!; [done| | | |]; intros l.
          -- rewrite I2, Hpre. destruct (decide (l = l0)) as [->|Hne].
             ++ rewrite lookup_insert. split; [tauto|]. by intros [_ ?].
             ++ rewrite lookup_insert_ne by done. tauto.
          -- rewrite Hpre. intros Hn. rewrite lookup_insert_ne by (intros ->; tauto). apply I3. tauto.
          -- rewrite Hpre. intros [Hp| ->].
             ++ rewrite lookup_insert_ne by (by intros ->). by apply I4.
             ++ rewrite lookup_insert. split; [done|]. unfold mval. by rewrite decide_False.
          -- destruct (decide (l = l0)) as [->|Hne].
             ++ rewrite lookup_insert. by intros [= Hc].
             ++ rewrite lookup_insert_ne by done. apply I5.
  Qed.
  Lemma edge_total (js : list (inj K P Q)) (bonds : gset (N * N)) links x :
    (forall l, l ∈ links -> l ∈ bonds -> l.2.2 = l.1.2 /\ forall j e, j ∈ js -> e ∈ inj_edges big j -> e.1 <> l) ->
    (forall l, l ∈ links -> l ∈ bonds \/ exists j e, j ∈ js /\ e ∈ inj_edges big j /\ e.1 = l) ->
    exists M drop, mfor (edge_step (edge_funclist big js) bonds x) links (∅, []) = Ok (M, drop).
  Proof.
    intros H1 H2. rewrite edge_funclist_eq.
    destruct (mfor_ind (edge_step (foldl fl_app ∅ (all_edges js)) bonds x) (fun _ _ => True) links (∅, []) I)
      as ([M drop] & -> & _); [|eauto].
    intros pre l post [M drop] Hl _.
    assert (l ∈ links) as Hin by (rewrite Hl; apply elem_of_app; right; by left).
    simpl. rewrite fl_ok.
    destruct (at_ (all_edges js) l) as [|f fs] eqn:Hat.
    - destruct (H2 l Hin) as [Hb|(j & e & Hj & He & Hel)].
      + destruct (H1 l Hin Hb) as [Hk _]. rewrite decide_True by done. rewrite decide_True by done. eauto.
      + exfalso. apply (at_nil _ _ Hat e); [|done]. apply elem_all. eauto.
    - rewrite decide_False.
      + rewrite sum_funcs_ok by done. destruct (decide _); eauto.
      + intros Hb. destruct (H1 l Hin Hb) as [_ Hno].
        assert (exists e, e ∈ all_edges js /\ e.1 = l) as (e & He & Hel).
        { assert (f ∈ at_ (all_edges js) l) as Hf by (rewrite Hat; by left).
          unfold at_ in Hf. apply elem_of_list_fmap in Hf as (e & _ & He). apply elem_of_list_filter in He as [? ?]. eauto. }
        apply elem_all in He as (j & Hj & He). by apply (Hno j e).
  Qed.

  (** the drops *)
  Lemma drops_ok drop : forall (seq req : gmap N (gset N)), NoDup drop ->
    (forall l, l ∈ drop -> l.2 ∈ ds_get seq l.1 /\ l.1 ∈ ds_get req l.2) ->
    exists seq' req', mfor drop_step drop (seq, req) = Ok (seq', req') /\
      (forall a b, b ∈ ds_get seq' a <-> b ∈ ds_get seq a /\ (a, b) ∉ drop) /\
      (forall a b, a ∈ ds_get req' b <-> a ∈ ds_get req b /\ (a, b) ∉ drop).
  Proof.
    induction drop as [|[a0 b0] drop IH]; intros seq req Hnd Hd.
    - exists seq, req. split; [done|]. split; intros a b; rewrite elem_of_nil; tauto.
    - apply NoDup_cons in Hnd as [Hn Hnd]. cbn [mfor]. unfold drop_step at 1. simpl fst. simpl snd.
      destruct (Hd (a0, b0)) as [D1 D2]; [by left|]. simpl in D1, D2.
      rewrite !ds_remove_ok by done. simpl.
      destruct (IH (<[a0 := ds_get seq a0 ∖ {[b0]}]> seq) (<[b0 := ds_get req b0 ∖ {[a0]}]> req) Hnd)
        as (seq' & req' & -> & S1 & S2).
      { intros [a b] Hl. destruct (Hd (a, b)) as [E1 E2]; [by right|]. simpl in *. rewrite !ds_get_insert. split.
        - destruct (decide (a = a0)) as [->|]; [|done]. apply elem_of_difference. split; [done|].
          rewrite elem_of_singleton. by intros ->.
        - destruct (decide (b = b0)) as [->|]; [|done]. apply elem_of_difference. split; [done|].
          rewrite elem_of_singleton. by intros ->. }
      exists seq', req'. split; [done|]. split; intros a b.
      + rewrite S1, ds_get_insert, elem_of_cons. destruct (decide (a = a0)) as [->|Hne].
        * rewrite elem_of_difference, elem_of_singleton. split; intros [? ?]; naive_solver.
        * naive_solver.
      + rewrite S2, ds_get_insert, elem_of_cons. destruct (decide (b = b0)) as [->|Hne].
        * rewrite elem_of_difference, elem_of_singleton. split; intros [? ?]; naive_solver.
        * naive_solver.
  Qed.

  (** ** the matrix as a sum over the injections *)
  Context (js : list (inj K P Q)) (bonds : gset (N * N)) (links : list (N * N)) (inputs nodes : list N) (x : sol).
  Context (Hcv : covers big eps js bonds links inputs nodes x).
  Lemma unlinked_zero (e : entry1 (N * N)) : e ∈ all_edges js -> e.1 ∉ links -> e.2.1 x = 0.
  Proof.
    intros He Hl. apply elem_all in He as (j & Hj & He). apply (edge_zero j e x He), some_zero.
    intros Hnz. apply Hl. destruct e as [l [f NZ]]. by apply (cv_edges _ _ _ _ _ _ _ _ Hcv j l f NZ).
  Qed.
  Lemma unsourced_zero (e : entry1 N) : e ∈ all_sources js -> e.1 ∉ inputs -> e.2.1 x = 0.
  Proof.
    intros He Hl. apply elem_all in He as (j & Hj & He). apply (source_zero j e x He), some_zero.
    intros Hnz. apply Hl. destruct e as [l [f NZ]]. by apply (cv_sources _ _ _ _ _ _ _ _ Hcv j l f NZ).
  Qed.
  Definition sbond (d : N -> K) t : K := fsum (fun a => if decide ((a, t) ∈ bonds) then d a else 0) nodes.
  Definition eapply_ (d : N -> K) (t : N) (L : list (entry1 (N * N))) : K :=
    fsum (fun e => if decide (e.1.2 = t) then e.2.1 x * d e.1.1 else 0) L.
  Lemma matrix_apply M seq seq' req req' d t :
    edge_matrix big js bonds links seq req x = Ok (M, seq', req') ->
    apply M nodes d t = eapply_ d t (all_edges js) + sbond d t.
  Proof.
    intros Hm. unfold edge_matrix in Hm.
    destruct (mfor (edge_step _ _ _) _ _) as [[M0 drop]|] eqn:Hl; [|done]. simpl in Hm.
    destruct (mfor drop_step drop _) as [[s' r']|]; [|done]. injection Hm as -> _ _.
    apply edge_loop_ok in Hl as (_ & _ & L1 & L2 & _); [|apply Hcv].
    assert (forall a, entry M a t = msum x (all_edges js) (a, t) + (if decide ((a, t) ∈ bonds) then 1 else 0)) as He.
    { intros a. unfold entry. destruct (decide ((a, t) ∈ links)) as [Hin|Hni].
      - destruct (L2 _ Hin) as [Hb ->]. unfold mval. destruct (decide ((a, t) ∈ bonds)); [|ring].
        rewrite Hb by done. ring.
      - rewrite L1 by done. simpl. rewrite decide_False.
        + rewrite msum_none; [ring|]. intros e Hel Heq. apply unlinked_zero; [done|]. by rewrite Heq.
        + intros Hb. by apply Hni, (cv_bonds _ _ _ _ _ _ _ _ Hcv). }
    unfold apply. rewrite (fsum_ext _ (fun a => msum x (all_edges js) (a, t) * d a +
       (if decide ((a, t) ∈ bonds) then d a else 0))).
    2:{ intros a _. rewrite He. destruct (decide ((a, t) ∈ bonds)); ring. }
    rewrite fsum_add. fold (sbond d t). f_equal.
    unfold msum, eapply_. rewrite (fsum_ext _ (fun a => fsum (fun e => (if decide (e.1 = (a, t)) then e.2.1 x else 0) * d a) (all_edges js)))
      by (intros a _; by rewrite fsum_mul_r).
    rewrite fsum_swap. apply fsum_ext. intros [[ea eb] [f NZ]] Hel. simpl.
    destruct (decide (eb = t)) as [->|Hne].
    - destruct (decide ((ea, t) ∈ links)) as [Hin|Hni].
      + rewrite (fsum_ext _ (fun a => if decide (a = ea) then f x * d a else 0)).
        2:{ intros a _. destruct (decide (a = ea)) as [->|Ha].
            - by rewrite decide_True.
            - rewrite decide_False by congruence. ring. }
        rewrite (fsum_delta ea (fun a => f x * d a)) by apply Hcv. rewrite decide_True; [done|]. by apply (cv_from _ _ _ _ _ _ _ _ Hcv ea t).
      + assert (f x = 0) as -> by (by apply (unlinked_zero ((ea, t), (f, NZ)))).
        rewrite fsum_0; [ring|]. intros a _. destruct (decide _); ring.
    - apply fsum_0. intros a _. rewrite decide_False by congruence. ring.
  Qed.
  Lemma sources_eq v t : source_vector big eps js inputs x = Ok v -> default 0 (v !! t) = msum x (all_sources js) t.
  Proof.
    intros Hv. rewrite (source_vector_ok _ _ _ _ (cv_inputs _ _ _ _ _ _ _ _ Hcv) Hv).
    destruct (decide (t ∈ inputs)).
    - destruct (decide (msum x (all_sources js) t = 0)) as [->|]; done.
    - simpl. rewrite msum_none; [done|]. intros e He Het. apply unsourced_zero; [done|]. by rewrite Het.
  Qed.
  Lemma fsum_join {A B} (g : A -> list B) (f : B -> K) (l : list A) :
    fsum f (mjoin (g <$> l)) = fsum (fun a => fsum f (g a)) l.
  Proof.
    induction l as [|a l IH]; [done|]. change (mjoin (g <$> a :: l)) with (g a ++ mjoin (g <$> l)).
    rewrite fsum_app, IH. done.
  Qed.

  Definition fv (n : N) : K := sget x n 0.
  Ltac per := repeat match goal with |- context [decide (?a = ?b)] => destruct (decide (a = b)); [|] end;
      subst; try done; rewrite ?div_eq; try ring.
  Lemma per_value j t : same_norm big eps x j ->
    msum x (inj_sources big eps j) t + eapply_ fv t (inj_edges big j) =
    if decide (target j = t) then amount big fv x j else 0.
  Proof.
    intros Hn. unfold msum, eapply_, fv.
    destruct j as [a b c|s c|a b c l|s c l|p1 p2 t0 c|p1 p2 t0 pn c f|p1 p2 t0 pns c f]; simpl.
    - per.
    - per.
    - rewrite mult_func_eq. per.
    - rewrite mult_func_eq. per.
    - destruct (decide (p1 <> p2)) as [|He]; simpl; unfold t_source, t_edge1, t_edge2; per.
    - destruct (decide (p1 <> p2)) as [|He]; simpl; unfold tn_source, tn_edge1, tn_edge2; per.
      destruct Hn as [|Hn]; [done|]. rewrite Hn. ring.
    - destruct (decide (p1 <> p2)) as [|He]; simpl; unfold ts_source, ts_edge1, ts_edge2, norm_args; per.
  Qed.
  Lemma per_deriv j d t : bilinear j ->
    eapply_ d t (inj_edges big j) =
    if decide (target j = t) then amount big (fun n => fv n + d n) x j - amount big fv x j - second_order big d x j else 0.
  Proof.
    intros Hn. unfold msum, eapply_, fv.
    destruct j as [a b c|s c|a b c l|s c l|p1 p2 t0 c|p1 p2 t0 pn c f|p1 p2 t0 pns c f]; simpl in *.
    - per.
    - per.
    - done.
    - subst l. simpl. per.
    - rewrite (decide_True (P := p1 <> p2)) by done. simpl; unfold t_edge1, t_edge2; per.
    - rewrite (decide_True (P := p1 <> p2)) by done. simpl; unfold tn_edge1, tn_edge2; per.
    - rewrite (decide_True (P := p1 <> p2)) by done. simpl; unfold ts_edge1, ts_edge2, norm_args; per.
  Qed.

  Lemma value_lem M v seq seq' req req' t : (forall j, j ∈ js -> same_norm big eps x j) ->
    edge_matrix big js bonds links seq req x = Ok (M, seq', req') -> source_vector big eps js inputs x = Ok v ->
    default 0 (v !! t) + apply M nodes fv t = total big js bonds nodes fv x t.
  Proof.
    intros Hn Hm Hv. rewrite (sources_eq v t Hv), (matrix_apply M seq seq' req req' fv t Hm).
    unfold msum, eapply_, all_sources, all_edges. rewrite !fsum_join. unfold total, sbond.
    assert (forall a b c d : K, a + b = d -> a + (b + c) = d + c) as Hr by (intros ???? <-; ring).
    apply Hr. rewrite <- fsum_add. apply fsum_ext. intros j Hj. by apply per_value, Hn.
  Qed.
  Lemma deriv_lem M seq seq' req req' d t : (forall j, j ∈ js -> bilinear j) ->
    edge_matrix big js bonds links seq req x = Ok (M, seq', req') ->
    total big js bonds nodes (fun n => fv n + d n) x t =
    total big js bonds nodes fv x t + apply M nodes d t + total_second big js d x t.
  Proof.
    intros Hn Hm. rewrite (matrix_apply M seq seq' req req' d t Hm).
    unfold eapply_, all_edges. rewrite !fsum_join. unfold total, total_second, sbond.
    rewrite (fsum_ext (fun j => fsum _ (inj_edges big j)) (fun j =>
       (if decide (target j = t) then amount big (fun n => fv n + d n) x j else 0) -
       (if decide (target j = t) then amount big fv x j else 0) -
       (if decide (target j = t) then second_order big d x j else 0))).
    2:{ intros j Hj. change (eapply_ d t (inj_edges big j) = (if decide (target j = t) then amount big (fun n => fv n + d n) x j else 0) -
       (if decide (target j = t) then amount big fv x j else 0) -
       (if decide (target j = t) then second_order big d x j else 0)). rewrite per_deriv by (by apply Hn). destruct (decide (target j = t)); ring. }
    rewrite !fsum_sub.
    rewrite (fsum_ext (fun a => if decide ((a, t) ∈ bonds) then fv a + d a else 0)
       (fun a => (if decide ((a, t) ∈ bonds) then fv a else 0) + (if decide ((a, t) ∈ bonds) then d a else 0))).
    2:{ intros a _. destruct (decide _); ring. }
    rewrite fsum_add. ring.
  Qed.

  Lemma pruned_lem seq req :
    (forall a b, (a, b) ∈ links <-> b ∈ ds_get seq a) -> (forall a b, b ∈ ds_get seq a <-> a ∈ ds_get req b) ->
    (forall l, l ∈ links -> l ∈ bonds -> l.2.2 = l.1.2 /\ forall j e, j ∈ js -> e ∈ inj_edges big j -> e.1 <> l) ->
    (forall l, l ∈ links -> l ∈ bonds \/ exists j e, j ∈ js /\ e ∈ inj_edges big j /\ e.1 = l) ->
    exists M seq' req', edge_matrix big js bonds links seq req x = Ok (M, seq', req') /\
      (forall a b, b ∈ ds_get seq' a <-> entry M a b <> 0) /\
      (forall a b, a ∈ ds_get req' b <-> entry M a b <> 0) /\
      (forall a b, is_Some (M !! (a, b)) <-> entry M a b <> 0).
  Proof.
    intros Hs Hm H1 H2. unfold edge_matrix.
    destruct (edge_total js bonds links x H1 H2) as (M & drop & Hl). rewrite Hl. simpl.
    apply edge_loop_ok in Hl as (D1 & D2 & L1 & L2 & L3); [|apply Hcv].
    destruct (drops_ok drop seq req D1) as (seq' & req' & -> & S1 & S2).
    { intros [a b] Hd. apply D2 in Hd as [Hd _]. simpl. split; [by apply Hs|]. by apply Hm, Hs. }
    simpl. exists M, seq', req'. split; [done|].
    assert (forall a b, is_Some (M !! (a, b)) <-> entry M a b <> 0) as Hsome.
    { intros a b. unfold entry. specialize (L3 (a, b)). destruct (M !! (a, b)) as [v|]; simpl.
      - split; [|by eauto]. intros _ ->. done.
      - split; [by intros [? ?]|done]. }
    assert (forall a b, b ∈ ds_get seq' a <-> entry M a b <> 0) as Hs'.
    { intros a b. rewrite <- Hsome, S1, <- Hs, D2. split.
      - intros [Hin Hnd]. destruct (M !! (a, b)) eqn:HM; [eauto|]. tauto.
      - intros [v HM]. destruct (decide ((a, b) ∈ links)) as [Hin|Hni]; [|by rewrite (L1 _ Hni) in HM].
        split; [done|]. intros [_ Hc]. by rewrite HM in Hc. }
    split_and!; [done| |done].
    intros a b. rewrite S2, <- Hm, <- S1. apply Hs'.
  Qed.
End proofs.

Section defect.
  Context {K : fld} {P Q : Type} `{Countable P} `{Countable Q} (big eps : K).
  Add Field FFdef : (f_theory K).
  Notation N := (P * Q)%type.
  Lemma norm_defect_lem (p1 p2 t pn : P * Q) (c : K) (f : K -> K) (x : gmap (P * Q) K) :
    p1 <> p2 -> p1 <> t -> p2 <> t -> sget x p1 0 <> 0 -> sget x p2 0 <> 0 -> c <> 0 ->
    f (sget x pn big) <> 0 -> f (sget x pn big + eps) <> 0 ->
    let js := [TripletNorm p1 p2 t pn c f] in
    exists M v, edge_matrix big js ∅ [(p1, t); (p2, t)]
        {[ p1 := {[ t ]}; p2 := {[ t ]} ]} {[ t := {[ p1; p2 ]} ]} x = Ok M /\
      source_vector big eps js [t] x = Ok v /\
      default 0 (v !! t) + apply M.1.1 [p1; p2] (fun n => sget x n 0) t =
        amount big (fun n => sget x n 0) x (TripletNorm p1 p2 t pn c f) +
        c * sget x p1 0 * sget x p2 0 * (1 / f (sget x pn big) - 1 / f (sget x pn big + eps)).
  Proof.
    intros H12 H1t H2t Hx1 Hx2 Hc Hf Hfe js.
    assert (forall a : K, a <> 0 -> finv a <> 0) as Hinv.
    { intros a Ha Hz. apply (f1_neq_0 (K := K)). rewrite <- (Finv_l (f_theory K) a Ha), Hz. ring. }
    assert (inj_edges big (TripletNorm p1 p2 t pn c f) =
       [((p1, t), (tn_edge1 big p2 pn c f, [p2])); ((p2, t), (tn_edge2 big p1 pn c f, [p1]))]) as He.
    { simpl. by rewrite decide_True. }
    assert (inj_sources big eps (TripletNorm p1 p2 t pn c f) = [(t, (tn_source big eps p1 p2 pn c f, [p1; p2]))]) as Hs.
    { simpl. by rewrite decide_True. }
    assert (covers big eps js ∅ [(p1, t); (p2, t)] [t] [p1; p2] x) as Hcv.
    { split.
      - apply NoDup_cons. split; [|apply NoDup_singleton]. rewrite elem_of_list_singleton. by intros [=].
      - apply NoDup_singleton.
      - apply NoDup_cons. split; [|apply NoDup_singleton]. by rewrite elem_of_list_singleton.
      - intros l Hl. by apply elem_of_empty in Hl.
      - intros j l g NZ Hj Hin _. apply elem_of_list_singleton in Hj as ->. rewrite He in Hin.
        rewrite !elem_of_cons, elem_of_nil in Hin. destruct Hin as [[= -> _ _]|[[= -> _ _]|[]]]; [by left|right; by left].
      - intros j l g NZ Hj Hin _. apply elem_of_list_singleton in Hj as ->. rewrite Hs in Hin.
        apply elem_of_list_singleton in Hin. injection Hin as -> _ _. by left.
      - intros a b Hab. rewrite !elem_of_cons, elem_of_nil in Hab. destruct Hab as [[= -> _]|[[= -> _]|[]]]; [by left|right; by left]. }
    assert (all_edges big js = inj_edges big (TripletNorm p1 p2 t pn c f)) as HaE.
    { unfold all_edges, js. change (mjoin (inj_edges big <$> [TripletNorm p1 p2 t pn c f])) with (inj_edges big (TripletNorm p1 p2 t pn c f) ++ []). by rewrite app_nil_r. }
    assert (all_sources big eps js = inj_sources big eps (TripletNorm p1 p2 t pn c f)) as HaS.
    { unfold all_sources, js. change (mjoin (inj_sources big eps <$> [TripletNorm p1 p2 t pn c f])) with (inj_sources big eps (TripletNorm p1 p2 t pn c f) ++ []). by rewrite app_nil_r. }
    destruct (pruned_lem big eps js ∅ [(p1, t); (p2, t)] [t] [p1; p2] x Hcv {[ p1 := {[ t ]}; p2 := {[ t ]} ]} {[ t := {[ p1; p2 ]} ]})
      as (M & seq' & req' & HM & _).
    { intros a b. rewrite !elem_of_cons, elem_of_nil. unfold ds_get. destruct (decide (a = p1)) as [->|Ha].
      - rewrite lookup_insert. simpl. rewrite elem_of_singleton. naive_solver.
      - rewrite lookup_insert_ne by done. destruct (decide (a = p2)) as [->|Ha'].
        + rewrite lookup_singleton. simpl. rewrite elem_of_singleton. naive_solver.
        + rewrite lookup_singleton_ne by done. simpl. rewrite elem_of_empty. naive_solver. }
    { intros a b. unfold ds_get. destruct (decide (b = t)) as [->|Hb].
      - rewrite lookup_singleton. simpl. rewrite elem_of_union, !elem_of_singleton. destruct (decide (a = p1)) as [->|Ha].
        + rewrite lookup_insert. simpl. rewrite elem_of_singleton. tauto.
        + rewrite lookup_insert_ne by done. destruct (decide (a = p2)) as [->|Ha'].
          * rewrite lookup_singleton. simpl. rewrite elem_of_singleton. tauto.
          * rewrite lookup_singleton_ne by done. simpl. rewrite elem_of_empty. tauto.
      - rewrite (lookup_singleton_ne t) by done. simpl. rewrite elem_of_empty. split; [|done].
        destruct (decide (a = p1)) as [->|Ha].
        + rewrite lookup_insert. simpl. by rewrite elem_of_singleton.
        + rewrite lookup_insert_ne by done. destruct (decide (a = p2)) as [->|Ha'].
          * rewrite lookup_singleton. simpl. by rewrite elem_of_singleton.
          * rewrite lookup_singleton_ne by done. simpl. by rewrite elem_of_empty. }
    { intros l _ Hl. by apply elem_of_empty in Hl. }
    { intros l Hl. right. exists (TripletNorm p1 p2 t pn c f). rewrite He.
      rewrite !elem_of_cons, elem_of_nil in Hl. destruct Hl as [->|[->|[]]]; eexists.
      - split; [by left|]. split; [left|done].
      - split; [by left|]. split; [right; left|done]. }
    destruct (source_total big eps js [t] x) as [v Hv].
    { intros t' ->%elem_of_list_singleton. exists (TripletNorm p1 p2 t pn c f). rewrite Hs. eexists.
      split; [by left|]. split; [by left|done]. }
    exists (M, seq', req'), v. split; [done|]. split; [done|]. cbn [fst].
    rewrite (sources_eq big eps js ∅ _ _ _ _ Hcv v t Hv), HaS, Hs.
    rewrite (matrix_apply big eps js ∅ _ _ _ _ Hcv M _ _ _ _ _ t HM), HaE, He.
    unfold msum, eapply_, sbond. simpl. rewrite !(decide_True (P := t = t)) by done.
    unfold tn_source, tn_edge1, tn_edge2. simpl.
    destruct (decide ((p1, t) ∈ ∅)) as [Hx%elem_of_empty|]; [done|].
    destruct (decide ((p2, t) ∈ ∅)) as [Hx%elem_of_empty|]; [done|].
    rewrite !div_eq. ring.
  Qed.
End defect.

Lemma ok_dec {A} `{EqDecision A} (r : res A) a :
  match r with Ok b => bool_decide (b = a) | Err _ => false end = true -> r = Ok a.
Proof. destruct r as [b|]; [|done]. intros Hb. f_equal. by apply bool_decide_eq_true in Hb. Qed.
Ltac ok_decide := apply ok_dec; vm_compute; reflexivity.

Lemma norm_refuted_lem : exists (js : list (inj Qc_fld nat nat)) links inputs nodes x M v seq seq' req req' t,
  let big := Q2Qc (1000000000000 # 1) : Qc_fld in let eps := Q2Qc (1 # 1000000000000000000000000000000) : Qc_fld in
  covers big eps js ∅ links inputs nodes x /\
  edge_matrix big js ∅ links seq req x = Ok (M, seq', req') /\ source_vector big eps js inputs x = Ok v /\
  default 0 (v !! t) + apply M nodes (fun n => sget x n 0) t <> total big js ∅ nodes (fun n => sget x n 0) x t.
Proof.
  exists [TripletNorm (0, 0)%nat (1, 0)%nat (2, 0)%nat (3, 0)%nat 1 (fun v => v)],
    [((0, 0), (2, 0)); ((1, 0), (2, 0))]%nat, [(2, 0)%nat], [(0, 0); (1, 0); (3, 0)]%nat,
    {[ (0, 0)%nat := 1; (1, 0)%nat := 1; (3, 0)%nat := 1 ]},
    {[ ((0, 0), (2, 0))%nat := 1; ((1, 0), (2, 0))%nat := 1 ]},
    {[ (2, 0)%nat := - (1 / (1 + (Q2Qc (1 # 1000000000000000000000000000000) : Qc_fld))) ]},
    {[ (0, 0)%nat := {[ (2, 0)%nat ]}; (1, 0)%nat := {[ (2, 0)%nat ]} ]},
    {[ (0, 0)%nat := {[ (2, 0)%nat ]}; (1, 0)%nat := {[ (2, 0)%nat ]} ]},
    {[ (2, 0)%nat := {[ (0, 0)%nat; (1, 0)%nat ]} ]}, {[ (2, 0)%nat := {[ (0, 0)%nat; (1, 0)%nat ]} ]}, (2, 0)%nat.
  intros big eps. split_and!.
  - split; try vm_decide.
    + intros j l f NZ Hj He _. apply elem_of_list_singleton in Hj as ->. simpl in He.
      rewrite !elem_of_cons, elem_of_nil in He. destruct He as [[= -> _ _]|[[= -> _ _]|[]]]; [by left|right; by left].
    + intros j s f NZ Hj He _. apply elem_of_list_singleton in Hj as ->. simpl in He.
      apply elem_of_list_singleton in He. injection He as -> _ _. by left.
    + intros a b Hab. rewrite !elem_of_cons, elem_of_nil in Hab.
      destruct Hab as [[= -> _]|[[= -> _]|[]]]; [by left|right; by left].
  - ok_decide.
  - ok_decide.
  - vm_decide.
Qed.
Lemma norm_derivative_refuted_lem : exists (js : list (inj Qc_fld nat nat)) links inputs nodes x x' M seq seq' req req' t,
  let big := Q2Qc (1000000000000 # 1) : Qc_fld in
  covers big 0 js ∅ links inputs nodes x /\ (forall j, j ∈ js -> bilinear j) /\
  edge_matrix big js ∅ links seq req x = Ok (M, seq', req') /\
  (forall j, j ∈ js -> second_order big (fun n => sget x' n 0 - sget x n 0) x j = 0) /\
  total big js ∅ nodes (fun n => sget x' n 0) x' t <>
    total big js ∅ nodes (fun n => sget x n 0) x t + apply M nodes (fun n => sget x' n 0 - sget x n 0) t.
Proof.
  exists [TripletNorm (0, 0)%nat (1, 0)%nat (2, 0)%nat (3, 0)%nat 1 (fun v => v)],
    [((0, 0), (2, 0)); ((1, 0), (2, 0))]%nat, [(2, 0)%nat], [(0, 0); (1, 0); (3, 0)]%nat,
    {[ (0, 0)%nat := 1; (1, 0)%nat := 1; (3, 0)%nat := 1 ]},
    {[ (0, 0)%nat := 1; (1, 0)%nat := 1; (3, 0)%nat := 1 + 1 ]},
    {[ ((0, 0), (2, 0))%nat := 1; ((1, 0), (2, 0))%nat := 1 ]},
    {[ (0, 0)%nat := {[ (2, 0)%nat ]}; (1, 0)%nat := {[ (2, 0)%nat ]} ]},
    {[ (0, 0)%nat := {[ (2, 0)%nat ]}; (1, 0)%nat := {[ (2, 0)%nat ]} ]},
    {[ (2, 0)%nat := {[ (0, 0)%nat; (1, 0)%nat ]} ]}, {[ (2, 0)%nat := {[ (0, 0)%nat; (1, 0)%nat ]} ]}, (2, 0)%nat.
  intros big. split_and!.
  - split; try vm_decide.
    + intros j l f NZ Hj He _. apply elem_of_list_singleton in Hj as ->. simpl in He.
      rewrite !elem_of_cons, elem_of_nil in He. destruct He as [[= -> _ _]|[[= -> _ _]|[]]]; [by left|right; by left].
    + intros j s f NZ Hj He _. apply elem_of_list_singleton in Hj as ->. simpl in He.
      apply elem_of_list_singleton in He. injection He as -> _ _. by left.
    + intros a b Hab. rewrite !elem_of_cons, elem_of_nil in Hab.
      destruct Hab as [[= -> _]|[[= -> _]|[]]]; [by left|right; by left].
  - intros j Hj. apply elem_of_list_singleton in Hj as ->. done.
  - ok_decide.
  - intros j Hj. apply elem_of_list_singleton in Hj as ->. vm_decide.
  - vm_decide.
Qed.

(** ** an example *)
Definition qz (a : Z) (b : positive) : Qc_fld := Q2Qc (a # b).
Definition ex_js : list (inj Qc_fld nat nat) :=
  [ConstantSource (0, 0)%nat (qz 2 1); ConstantEdge (0, 0)%nat (1, 0)%nat (qz 5 2);
   Triplet (0, 0)%nat (1, 0)%nat (2, 0)%nat (qz 3 1);
   TripletNorms (0, 0)%nat (1, 0)%nat (4, 0)%nat [(0, 0); (1, 0)]%nat (qz 3 1) (fun l => fold_right fadd 0 l)].
Definition ex_bonds : gset ((nat * nat) * (nat * nat)) := {[ ((2, 0), (3, 0))%nat ]}.
Definition ex_links : list ((nat * nat) * (nat * nat)) :=
  [((0, 0), (1, 0)); ((0, 0), (2, 0)); ((1, 0), (2, 0)); ((2, 0), (3, 0)); ((0, 0), (4, 0)); ((1, 0), (4, 0))]%nat.
Definition ex_inputs : list (nat * nat) := [(0, 0); (2, 0); (4, 0)]%nat.
Definition ex_nodes : list (nat * nat) := [(0, 0); (1, 0); (2, 0); (3, 0); (4, 0)]%nat.
Definition ex_x : gmap (nat * nat) Qc_fld := {[ (0, 0)%nat := qz 2 1; (1, 0)%nat := qz 5 1 ]}.
Definition ex_seq : gmap (nat * nat) (gset (nat * nat)) := foldl (fun m '(a, b) => ds_add m a b) ∅ ex_links.
Definition ex_req : gmap (nat * nat) (gset (nat * nat)) := foldl (fun m '(a, b) => ds_add m b a) ∅ ex_links.
Lemma C34_hypotheses_lem : exists M v seq' req',
  covers 0 0 ex_js ex_bonds ex_links ex_inputs ex_nodes ex_x /\
  (forall j, j ∈ ex_js -> bilinear j /\ same_norm 0 0 ex_x j) /\
  edge_matrix 0 ex_js ex_bonds ex_links ex_seq ex_req ex_x = Ok (M, seq', req') /\
  source_vector 0 0 ex_js ex_inputs ex_x = Ok v /\
  M !! ((0, 0), (2, 0))%nat = Some (Q2Qc (15 # 1)) /\ v !! (2, 0)%nat = Some (Q2Qc (-30 # 1)).
Proof.
  destruct (edge_matrix 0 ex_js ex_bonds ex_links ex_seq ex_req ex_x) as [[[M seq'] req']|] eqn:HM; [|by vm_compute in HM].
  destruct (source_vector 0 0 ex_js ex_inputs ex_x) as [v|] eqn:Hv; [|by vm_compute in Hv].
  exists M, v, seq', req'. split_and!.
  - split; try vm_decide.
    + intros j l f NZ Hj He _. unfold ex_js in Hj. rewrite !elem_of_cons, elem_of_nil in Hj.
      destruct Hj as [->|[->|[->|[->|[]]]]]; simpl in He; rewrite ?elem_of_cons, elem_of_nil in He;
        repeat match type of He with _ \/ _ => destruct He as [He|He] end; try done; injection He as -> _ _; vm_decide.
    + intros j l f NZ Hj He _. unfold ex_js in Hj. rewrite !elem_of_cons, elem_of_nil in Hj.
      destruct Hj as [->|[->|[->|[->|[]]]]]; simpl in He; rewrite ?elem_of_cons, elem_of_nil in He;
        repeat match type of He with _ \/ _ => destruct He as [He|He] end; try done; injection He as -> _ _; vm_decide.
    + intros a b Hab. unfold ex_links in Hab. rewrite !elem_of_cons, elem_of_nil in Hab.
      repeat match type of Hab with _ \/ _ => destruct Hab as [Hab|Hab] end; try done; injection Hab as -> _; vm_decide.
  - intros j Hj. unfold ex_js in Hj. rewrite !elem_of_cons, elem_of_nil in Hj.
    destruct Hj as [->|[->|[->|[->|[]]]]]; done.
  - done.
  - done.
  - assert ((default (∅, ∅, ∅) (match edge_matrix 0 ex_js ex_bonds ex_links ex_seq ex_req ex_x with Ok r => Some r | _ => None end)).1.1
      !! ((0, 0), (2, 0))%nat = Some (Q2Qc (15 # 1))) as Hc by vm_decide.
    by rewrite HM in Hc.
  - assert ((default ∅ (match source_vector 0 0 ex_js ex_inputs ex_x with Ok r => Some r | _ => None end))
      !! (2, 0)%nat = Some (Q2Qc (-30 # 1))) as Hc by vm_decide.
    by rewrite Hv in Hc.
Qed.

Lemma C34_value_lem {K : fld} {P Q} `{Countable P} `{Countable Q} (big eps : K)
    (js : list (inj K P Q)) (bonds : gset ((P * Q) * (P * Q))) (links : list ((P * Q) * (P * Q))) (inputs nodes : list (P * Q))
    (x : gmap (P * Q) K) M v seq seq' req req' :
  covers big eps js bonds links inputs nodes x -> (forall j, j ∈ js -> same_norm big eps x j) ->
  edge_matrix big js bonds links seq req x = Ok (M, seq', req') ->
  source_vector big eps js inputs x = Ok v ->
  forall t, default 0 (v !! t) + apply M nodes (fun n => sget x n 0) t
            = total big js bonds nodes (fun n => sget x n 0) x t.
Proof. intros Hc Hn Hm Hv t. exact (value_lem big eps js bonds links inputs nodes x Hc M v seq seq' req req' t Hn Hm Hv). Qed.

Lemma C34_fixed_point_lem {K : fld} {P Q} `{Countable P} `{Countable Q} (big eps : K)
    (js : list (inj K P Q)) (bonds : gset ((P * Q) * (P * Q))) (links : list ((P * Q) * (P * Q))) (inputs nodes : list (P * Q))
    (x : gmap (P * Q) K) M v seq seq' req req' :
  covers big eps js bonds links inputs nodes x -> (forall j, j ∈ js -> same_norm big eps x j) ->
  edge_matrix big js bonds links seq req x = Ok (M, seq', req') ->
  source_vector big eps js inputs x = Ok v ->
  (forall t, sget x t 0 = default 0 (v !! t) + apply M nodes (fun n => sget x n 0) t) <->
  (forall t, sget x t 0 = total big js bonds nodes (fun n => sget x n 0) x t).
Proof.
  intros Hc Hn Hm Hv. split; intros Hx t; rewrite (Hx t) at 1.
  - exact (value_lem big eps js bonds links inputs nodes x Hc M v seq seq' req req' t Hn Hm Hv).
  - symmetry. exact (value_lem big eps js bonds links inputs nodes x Hc M v seq seq' req req' t Hn Hm Hv).
Qed.

Lemma C34_derivative_lem {K : fld} {P Q} `{Countable P} `{Countable Q} (big eps : K)
    (js : list (inj K P Q)) (bonds : gset ((P * Q) * (P * Q))) (links : list ((P * Q) * (P * Q))) (inputs nodes : list (P * Q))
    (x : gmap (P * Q) K) M seq seq' req req' d :
  covers big eps js bonds links inputs nodes x -> (forall j, j ∈ js -> bilinear j) ->
  edge_matrix big js bonds links seq req x = Ok (M, seq', req') ->
  forall t, total big js bonds nodes (fun n => sget x n 0 + d n) x t =
    total big js bonds nodes (fun n => sget x n 0) x t + apply M nodes d t + total_second big js d x t.
Proof. intros Hc Hn Hm t. exact (deriv_lem big eps js bonds links inputs nodes x Hc M seq seq' req req' d t Hn Hm). Qed.

Lemma C34_square_refuted_lem : exists (js : list (inj Qc_fld nat nat)) links inputs nodes x M seq seq' req req' d t,
  covers f0 f0 js ∅ links inputs nodes x /\
  edge_matrix f0 js ∅ links seq req x = Ok (M, seq', req') /\
  total f0 js ∅ nodes (fun n => sget x n 0 + d n) x t <>
    total f0 js ∅ nodes (fun n => sget x n 0) x t + apply M nodes d t + total_second f0 js d x t.
Proof.
  exists [Triplet (0, 0)%nat (0, 0)%nat (1, 0)%nat 1], [((0, 0), (1, 0))%nat], [], [(0, 0)%nat; (1, 0)%nat],
    {[ (0, 0)%nat := 1 ]}, {[ ((0, 0), (1, 0))%nat := 1 ]},
    {[ (0, 0)%nat := {[ (1, 0)%nat ]} ]}, {[ (0, 0)%nat := {[ (1, 0)%nat ]} ]},
    {[ (1, 0)%nat := {[ (0, 0)%nat ]} ]}, {[ (1, 0)%nat := {[ (0, 0)%nat ]} ]}, (fun _ => 1), (1, 0)%nat.
  split; [|split].
  - split; try (vm_decide || done).
    + intros j l f NZ Hj He _. apply elem_of_list_singleton in Hj as ->. simpl in He.
      apply elem_of_list_singleton in He. injection He as -> _ _. by left.
    + intros j s f NZ Hj He _. apply elem_of_list_singleton in Hj as ->. simpl in He.
      by apply elem_of_nil in He.
    + intros a b Hab. apply elem_of_list_singleton in Hab. injection Hab as -> ->. by left.
  - ok_decide.
  - vm_decide.
Qed.
