(** Lemmas about the coherent sparsity analysis. *)
From stdpp Require Import base tactics list numbers gmap fin_sets relations.
From Verif Require Import Fld Py LinSpec LinAlg LinReduce GraphModel GraphProofs GraphPurge CohModel CohSpec.
Local Open Scope nat_scope.

(** ** the counters *)
Section tables.
  Context {V X N : Type} `{Countable V} `{Countable X} `{EqDecision N} (emb : N -> V).
  Context {emb_inj : Inj (=) (=) emb}.
  Implicit Types (x : X) (n : N) (v : V) (A : gset V) (NZ rq : list N) (i : nat).
  Notation table := (list (X * list (list N * list N))).
  Implicit Types (T : table).

  Definition entry T x i NZ rq : Prop := exists rs, (x, rs) ∈ T /\ rs !! i = Some (NZ, rq).
  Definition trig NZ rq : list N := if decide (length NZ = 0) then rq else NZ.
  Definition cnt A NZ rq : Z :=
    (Z.of_nat (length NZ) - Z.of_nat (length (filter (fun n => emb n ∈ A) (trig NZ rq))))%Z.
  Definition wf_tab T : Prop :=
    NoDup T.*1 /\ forall x i NZ rq, entry T x i NZ rq -> NoDup NZ /\ NoDup rq.

  Record tinv T A (ord : ord_map X) (inv : inv_map V X N) : Prop := {
    ti_ord : forall x i NZ rq, entry T x i NZ rq ->
      exists os, ord !! x = Some os /\ os !! i = Some (cnt A NZ rq);
    ti_inv : forall v, v ∉ A -> NoDup (default [] (inv !! v)) /\
      forall i x rq, (i, x, rq) ∈ default [] (inv !! v) <->
        exists n NZ, v = emb n /\ entry T x i NZ rq /\ n ∈ trig NZ rq;
  }.
  Definition enabled T A x rq : Prop :=
    exists i NZ, entry T x i NZ rq /\ forall n, n ∈ NZ -> emb n ∈ A.

  Lemma entry_fun T x i NZ rq NZ' rq' : NoDup T.*1 ->
    entry T x i NZ rq -> entry T x i NZ' rq' -> NZ = NZ' /\ rq = rq'.
  Proof.
    intros Hnd (rs & Hr & Hi) (rs' & Hr' & Hi').
    assert (rs = rs') as ->; [|naive_solver].
    apply elem_of_list_lookup in Hr as [a Ha]. apply elem_of_list_lookup in Hr' as [b Hb].
    assert (a = b) as ->; [|naive_solver].
    eapply (NoDup_lookup T.*1); [done|by rewrite list_lookup_fmap, Ha|by rewrite list_lookup_fmap, Hb].
  Qed.

  Lemma cnt_add A v NZ rq : v ∉ A -> NoDup NZ -> NoDup rq ->
    cnt ({[v]} ∪ A) NZ rq =
    (cnt A NZ rq - if decide (v ∈ emb <$> trig NZ rq) then 1 else 0)%Z.
  Proof.
    intros Hv Hn Hr. unfold cnt. assert (NoDup (trig NZ rq)) as Ht by (unfold trig; by case_decide).
    set (L := trig NZ rq) in *. clearbody L.
    assert (length (filter (fun n => emb n ∈ ({[v]} ∪ A : gset V)) L) =
      length (filter (fun n => emb n ∈ A) L) + if decide (v ∈ emb <$> L) then 1 else 0) as ->;
      [|case_decide; lia].
    clear -Ht Hv emb_inj. induction L as [|a L IH]; [done|].
    apply NoDup_cons in Ht as [Ha Ht]. specialize (IH Ht). rewrite !filter_cons, fmap_cons.
    destruct (decide (emb a = v)) as [<-|Hne].
    - rewrite decide_True by set_solver. rewrite (decide_False (P := emb a ∈ A)) by done.
      rewrite decide_True by set_solver. simpl.
      rewrite decide_False in IH; [lia|]. intros (n & Hn & HnL)%elem_of_list_fmap. apply emb_inj in Hn. by subst.
    - assert (v ∈ emb a :: (emb <$> L) <-> v ∈ emb <$> L) as Hd by set_solver.
      destruct (decide (emb a ∈ A)).
      + rewrite decide_True by set_solver. simpl. rewrite IH.
        destruct (decide (v ∈ emb <$> L)), (decide (v ∈ emb a :: (emb <$> L))); tauto || lia.
      + rewrite decide_False by set_solver. rewrite IH.
        destruct (decide (v ∈ emb <$> L)), (decide (v ∈ emb a :: (emb <$> L))); tauto || lia.
  Qed.

  Lemma cnt_zero A NZ rq : NZ <> [] -> NoDup NZ ->
    cnt A NZ rq = 0%Z <-> forall n, n ∈ NZ -> emb n ∈ A.
  Proof.
    intros Hne Hnd. unfold cnt, trig. rewrite decide_False by (destruct NZ; done).
    clear Hne. transitivity (length (filter (fun n => emb n ∈ A) NZ) = length NZ); [lia|].
    clear Hnd. induction NZ as [|a NZ IH]; [set_solver|]. rewrite filter_cons.
    pose proof (filter_length (fun n => emb n ∈ A) NZ).
    destruct (decide (emb a ∈ A)); simpl.
    - rewrite Nat.succ_inj_wd, IH. set_solver.
    - split; [lia|]. set_solver.
  Qed.
  Lemma cnt_none A NZ rq : (forall n, emb n ∉ A) -> cnt A NZ rq = Z.of_nat (length NZ).
  Proof.
    intros HA. unfold cnt. generalize (trig NZ rq). intros L.
    assert (length (filter (fun n => emb n ∈ A) L) = 0); [|lia].
    induction L as [|a L IH]; [done|]. rewrite filter_cons, decide_False; [done|apply HA].
  Qed.
  Lemma cnt_neg A rq : (cnt A [] rq <= 0)%Z.
  Proof. unfold cnt. simpl. lia. Qed.

  (** processing the inverse list of a new node *)
  Lemma dec_loop_ok {S} (fire : S -> X -> list N -> S) T A ord inv v s :
    wf_tab T -> tinv T A ord inv -> v ∉ A ->
    exists ord' F, dec_loop fire ord s (default [] (inv !! v))
      = Ok (ord', foldl (fun s e => fire s e.1 e.2) s F) /\
      tinv T ({[v]} ∪ A) ord' (delete v inv) /\
      forall x rq, (x, rq) ∈ F <-> exists i NZ n, entry T x i NZ rq /\ v = emb n /\ n ∈ NZ /\
                                   forall n, n ∈ NZ -> emb n ∈ {[v]} ∪ A.
  Proof.
    intros [Hkeys Hfr] [Hord Hinv] Hv. destruct (Hinv v Hv) as [Hnd Hmem].
    set (l := default [] (inv !! v)) in *.
    assert (forall x i NZ rq, entry T x i NZ rq -> ((i, x, rq) ∈ l <-> v ∈ emb <$> trig NZ rq)) as Hml.
    { intros x i NZ rq He. rewrite Hmem, elem_of_list_fmap. split.
      - intros (n & NZ' & Hvn & He' & Hn).
        destruct (entry_fun T x i NZ rq NZ' rq) as [-> _]; eauto.
      - intros (n & Hvn & Hn). eauto 6. }
    destruct (mfor_ind (dec_step fire)
      (fun pre st => exists F, st.2 = foldl (fun s e => fire s e.1 e.2) s F /\
         (forall x rq, (x, rq) ∈ F <-> exists i NZ n, (i, x, rq) ∈ pre /\ entry T x i NZ rq /\ v = emb n /\
             n ∈ NZ /\ forall n, n ∈ NZ -> emb n ∈ {[v]} ∪ A) /\
         (forall x i NZ rq, entry T x i NZ rq -> exists os, st.1 !! x = Some os /\
             os !! i = Some (cnt A NZ rq - if decide ((i, x, rq) ∈ pre) then 1 else 0)%Z))
      l (ord, s)) as ([ord' s'] & Hrun & F & Hs & HF & Hord').
    { exists []. split_and!; [done|set_solver|]. intros x i NZ rq He.
      destruct (Hord x i NZ rq He) as (os & Hos & Ho). exists os. split; [done|].
      rewrite decide_False by set_solver. rewrite Ho. f_equal. lia. }
    { intros pre [[i x] rq] post [o t] Hl (F & Ht & HF & Ho). simpl in *.
      assert ((i, x, rq) ∈ l) as Hin by (rewrite Hl; set_solver).
      pose proof Hin as Hin0. apply Hmem in Hin as (n & NZ & Hvn & He & Hn).
      assert ((i, x, rq) ∉ pre) as Hnp.
      { rewrite Hl in Hnd. apply NoDup_app in Hnd as (_ & Hd & _). intros Hp. apply (Hd _ Hp). set_solver. }
      destruct (Ho x i NZ rq He) as (os & Hox & Hos). rewrite decide_False in Hos by done.
      rewrite Z.sub_0_r in Hos.
      rewrite Hox, Hos. simpl. eexists. split; [reflexivity|].
      destruct (Hfr x i NZ rq He) as [HndN HndR].
      assert ((cnt A NZ rq - 1 = 0)%Z <-> exists n, v = emb n /\ n ∈ NZ /\ forall n, n ∈ NZ -> emb n ∈ {[v]} ∪ A) as Hz.
      { destruct NZ as [|n0 NZ0].
        - pose proof (cnt_neg A rq). split; [lia|]. set_solver.
        - assert (trig (n0 :: NZ0) rq = n0 :: NZ0) as Htr by done.
          pose proof (cnt_zero ({[v]} ∪ A) (n0 :: NZ0) rq ltac:(done) HndN) as Hc.
          rewrite cnt_add in Hc by done. rewrite decide_True in Hc by (apply elem_of_list_fmap; eauto).
          rewrite Hc. split.
          + intros Hs. exists n. rewrite Htr in Hn. done.
          + intros (? & _ & _ & ?). done. }
      exists (if decide (cnt A NZ rq - 1 = 0)%Z then F ++ [(x, rq)] else F). split_and!.
      - simpl. case_decide; rewrite Ht; [|done]. by rewrite foldl_app.
      - intros y rq'. transitivity ((y, rq') ∈ F \/ (cnt A NZ rq - 1 = 0)%Z /\ (y, rq') = (x, rq)).
        { case_decide; set_solver. }
        rewrite HF, Hz. split.
        + intros [(i' & NZ' & n' & Hp & R)|[(n' & R) [= -> ->]]].
          * exists i', NZ', n'. split; [set_solver|done].
          * exists i, NZ, n'. split; [set_solver|]. naive_solver.
        + intros (i' & NZ' & n' & Hp & He' & R). apply elem_of_app in Hp as [Hp|Hp].
          * left. eauto 10.
          * right. apply elem_of_list_singleton in Hp as [= -> -> ->].
            destruct (entry_fun T x i NZ rq NZ' rq Hkeys He He') as [-> _]. split; [|done]. eauto.
      - simpl. intros y i' NZ' rq' He'. destruct (decide (y = x)) as [->|Hne].
        + rewrite lookup_insert. destruct (Ho x i' NZ' rq' He') as (os' & Hox' & Hos').
          assert (os' = os) as -> by congruence. eexists. split; [reflexivity|].
          destruct (decide (i' = i)) as [->|Hni].
          * destruct (entry_fun T x i NZ rq NZ' rq' Hkeys He He') as [<- <-].
            rewrite list_lookup_insert by (eapply lookup_lt_Some; eauto).
            rewrite decide_True by (apply elem_of_app; right; by apply elem_of_list_singleton). done.
          * rewrite list_lookup_insert_ne by done. rewrite Hos'.
            f_equal. f_equal. destruct (decide ((i', x, rq') ∈ pre)); destruct (decide ((i', x, rq') ∈ pre ++ [(i, x, rq)])); set_solver.
        + rewrite lookup_insert_ne by done. destruct (Ho y i' NZ' rq' He') as (os' & Hox' & Hos').
          eexists. split; [done|]. rewrite Hos'.
          f_equal. f_equal. destruct (decide ((i', y, rq') ∈ pre)); destruct (decide ((i', y, rq') ∈ pre ++ [(i, x, rq)])); set_solver. }
    simpl in *. exists ord', F. split_and!.
    - unfold dec_loop. rewrite Hrun. by rewrite Hs.
    - split.
      + intros x i NZ rq He. destruct (Hord' x i NZ rq He) as (os & Hos & Ho).
        exists os. split; [done|]. rewrite Ho. destruct (Hfr x i NZ rq He).
        rewrite cnt_add by done. specialize (Hml x i NZ rq He).
        f_equal. f_equal. repeat case_decide; tauto.
      + intros w Hw. rewrite lookup_delete_ne by set_solver. apply Hinv. set_solver.
    - intros x rq. rewrite HF. split; intros (i & NZ & n & R).
      + exists i, NZ, n. tauto.
      + exists i, NZ, n. destruct R as (He & Hvn & Hn & Hs'). split_and!; auto.
        apply (Hml x i NZ rq He). apply elem_of_list_fmap. exists n. split; [done|].
        unfold trig. rewrite decide_False; [done|]. destruct NZ; set_solver.
  Qed.

  Lemma enabled_add T A v x rq (F : list (X * list N)) :
    (forall x rq, (x, rq) ∈ F <-> exists i NZ n, entry T x i NZ rq /\ v = emb n /\ n ∈ NZ /\
                                   forall n, n ∈ NZ -> emb n ∈ {[v]} ∪ A) ->
    enabled T ({[v]} ∪ A) x rq <-> enabled T A x rq \/ (x, rq) ∈ F.
  Proof.
    intros HF. rewrite HF. unfold enabled. split.
    - intros (i & NZ & He & Hs). destruct (decide (v ∈ emb <$> NZ)) as [Hv|Hv].
      + right. apply elem_of_list_fmap in Hv as (n & Hvn & Hn). eauto 10.
      + left. exists i, NZ. split; [done|]. intros n Hn. specialize (Hs n Hn).
        apply elem_of_union in Hs as [Hs|Hs]; [|done]. apply elem_of_singleton in Hs as <-.
        destruct Hv. apply elem_of_list_fmap. eauto.
    - intros [(i & NZ & He & Hs)|(i & NZ & n & He & _ & _ & Hs)]; exists i, NZ; set_solver.
  Qed.
  Lemma enabled_mono T A B x rq : A ⊆ B -> enabled T A x rq -> enabled T B x rq.
  Proof. intros ? (i & NZ & He & Hs). exists i, NZ. set_solver. Qed.

  (** ** building the tables *)
  Lemma add_all_ok (t : nat * X * list N) (L : list N) v : forall (inv : inv_map V X N), NoDup L ->
    default [] (foldl (fun inv n => <[emb n := default [] (inv !! emb n) ++ [t]]> inv) inv L !! v)
    = default [] (inv !! v) ++ if decide (v ∈ emb <$> L) then [t] else [].
  Proof.
    induction L as [|a L IH]; intros inv Hnd; simpl.
    { by rewrite app_nil_r. }
    apply NoDup_cons in Hnd as [Ha Hnd]. rewrite IH by done.
    destruct (decide (v = emb a)) as [->|Hne].
    - rewrite lookup_insert. simpl. rewrite decide_False, app_nil_r.
      + by rewrite decide_True by set_solver.
      + intros (n & Hn & HnL)%elem_of_list_fmap. apply emb_inj in Hn. by subst.
    - rewrite lookup_insert_ne by done. f_equal.
      assert (v ∈ emb a :: (emb <$> L) <-> v ∈ emb <$> L) as Hd by set_solver.
      change (list_fmap N V emb L) with (emb <$> L). destruct (decide (v ∈ emb <$> L)); destruct (decide (v ∈ emb a :: (emb <$> L))); done || tauto.
  Qed.

  Lemma link_inj_ok x rs : forall ol any0 outs (inv : inv_map V X N),
    (forall NZ rq, (NZ, rq) ∈ rs -> NoDup NZ /\ NoDup rq) ->
    (forall v i rq, (i, x, rq) ∈ default [] (inv !! v) -> i < length ol) ->
    exists any1 outs' inv',
      foldl (link_inj emb x) (ol, any0, outs, inv) rs
      = (ol ++ ((fun r => Z.of_nat (length r.1)) <$> rs), any1, outs', inv') /\
      (any1 = true <-> any0 = true \/ exists rq, ([], rq) ∈ rs) /\
      (forall v, v ∈ outs' <-> v ∈ outs \/ exists rq, ([], rq) ∈ rs /\ v ∈ emb <$> rq) /\
      (forall v, NoDup (default [] (inv !! v)) -> NoDup (default [] (inv' !! v))) /\
      (forall v i y rq, (i, y, rq) ∈ default [] (inv' !! v) <->
         (i, y, rq) ∈ default [] (inv !! v) \/
         y = x /\ exists k NZ, i = length ol + k /\ rs !! k = Some (NZ, rq) /\ v ∈ emb <$> trig NZ rq).
  Proof.
    induction rs as [|[NZ rq] rs IH]; intros ol any0 outs inv Hnd Hlt.
    { exists any0, outs, inv. simpl. rewrite app_nil_r. split_and!; try done; set_solver. }
    set (inv1 := foldl (fun (inv : inv_map V X N) n =>
                   <[emb n := default [] (inv !! emb n) ++ [(length ol, x, rq)]]> inv) inv (trig NZ rq)).
    assert (NoDup NZ /\ NoDup rq) as [HN HR] by (apply Hnd; set_solver).
    assert (forall v, default [] (inv1 !! v) = default [] (inv !! v) ++
       if decide (v ∈ emb <$> trig NZ rq) then [(length ol, x, rq)] else []) as Hinv1.
    { intros v. unfold inv1. apply add_all_ok. unfold trig. by case_decide. }
    set (any1 := if decide (length NZ = 0) then true else any0).
    set (outs1 := if decide (length NZ = 0) then list_to_set (emb <$> rq) ∪ outs else outs).
    destruct (IH (ol ++ [Z.of_nat (length NZ)]) any1 outs1 inv1) as (any2 & outs2 & inv2 & Hf & Ha & Ho & Hd & Hm).
    { intros ? ? ?. apply Hnd. set_solver. }
    { intros v i rq'. rewrite Hinv1, elem_of_app, app_length. simpl.
      intros [Hi|Hi]; [apply Hlt in Hi; lia|]. destruct (decide (v ∈ emb <$> trig NZ rq)); [|by apply elem_of_nil in Hi].
      apply elem_of_list_singleton in Hi as [= -> ->]. lia. }
    exists any2, outs2, inv2. clear IH.
    assert (length NZ = 0 <-> NZ = []) as Hz by (destruct NZ; naive_solver).
    split_and!.
    - unfold any1, outs1 in Hf. rewrite <- app_assoc in Hf. simpl in Hf. cbn [foldl].
      etransitivity; [|exact Hf]. f_equal. unfold link_inj, inv1, trig.
      destruct (decide (length NZ = 0)); rewrite app_length; simpl;
        replace (length ol + 1 - 1) with (length ol) by lia; reflexivity.
    - rewrite Ha. unfold any1. clear -Hz. setoid_rewrite elem_of_cons.
      destruct (decide (length NZ = 0)) as [Hl|Hl]; naive_solver.
    - intros v. rewrite Ho. unfold outs1. destruct (decide (length NZ = 0)) as [Hl|Hl].
      + rewrite Hz in Hl. subst NZ. rewrite elem_of_union, elem_of_list_to_set. clear.
        setoid_rewrite elem_of_cons. naive_solver.
      + clear -Hz Hl. setoid_rewrite elem_of_cons. naive_solver.
    - intros v Hv. apply Hd. rewrite Hinv1. apply NoDup_app. split_and!; [done| |].
      + intros e He. destruct (decide (v ∈ emb <$> trig NZ rq)); [|by intros ?%elem_of_nil]. intros ->%elem_of_list_singleton.
        apply Hlt in He. lia.
      + destruct (decide (v ∈ emb <$> trig NZ rq)); [apply NoDup_singleton|constructor].
    - intros v i y rq'. rewrite Hm, Hinv1, elem_of_app, app_length. simpl. split.
      + intros [[Hi|Hi]|(-> & k & NZ' & -> & Hk & Hv)]; [by left| |].
        * destruct (decide (v ∈ emb <$> trig NZ rq)) as [Hv|]; [|by apply elem_of_nil in Hi]. apply elem_of_list_singleton in Hi as [= -> -> ->].
          right. split; [done|]. exists 0, NZ. split; [lia|done].
        * right. split; [done|]. exists (S k), NZ'. split; [lia|done].
      + intros [Hi|(-> & [|k] & NZ' & -> & Hk & Hv)]; [by left; left| |].
        * simpl in Hk. injection Hk as -> ->. left. right. rewrite decide_True by done.
          rewrite Nat.add_0_r. by apply elem_of_list_singleton.
        * right. split; [done|]. exists k, NZ'. split; [lia|done].
  Qed.

  Lemma entry_app T y rs x i NZ rq :
    entry (T ++ [(y, rs)]) x i NZ rq <-> entry T x i NZ rq \/ x = y /\ rs !! i = Some (NZ, rq).
  Proof. unfold entry. set_solver. Qed.

  Lemma link_items_snoc {S} (mark : S -> X -> S) (outs0 : gset V) (t0 : S) T x rs :
    link_items emb mark outs0 t0 (T ++ [(x, rs)]) =
    let '(ord, inv, outs, t) := link_items emb mark outs0 t0 T in
    let '(ol, any0, outs, inv) := foldl (link_inj emb x) ([], false, outs, inv) rs in
    (<[x := ol]> ord, inv, outs, if any0 : bool then mark t x else t).
  Proof. unfold link_items. rewrite foldl_app. simpl. by destruct (foldl _ (∅, ∅, outs0, t0) T) as [[[? ?] ?] ?]. Qed.
  Lemma link_items_ok {S} (mark : S -> X -> S) (outs0 : gset V) (t0 : S) T :
    wf_tab T -> exists ord inv outs M,
      link_items emb mark outs0 t0 T = (ord, inv, outs, foldl mark t0 M) /\
      tinv T ∅ ord inv /\
      (forall v, v ∈ outs <-> v ∈ outs0 \/ exists x rq, enabled T ∅ x rq /\ v ∈ emb <$> rq) /\
      (forall x, x ∈ M <-> exists rq, enabled T ∅ x rq).
  Proof.
    intros [Hkeys Hfr].
    cut (exists ord inv outs M,
      link_items emb mark outs0 t0 T = (ord, inv, outs, foldl mark t0 M) /\
      (forall x i NZ rq, entry T x i NZ rq ->
         exists os, ord !! x = Some os /\ os !! i = Some (Z.of_nat (length NZ))) /\
      (forall v, NoDup (default [] (inv !! v)) /\
        forall i x rq, (i, x, rq) ∈ default [] (inv !! v) <->
          exists NZ, entry T x i NZ rq /\ v ∈ emb <$> trig NZ rq) /\
      (forall v, v ∈ outs <-> v ∈ outs0 \/ exists x i rq, entry T x i [] rq /\ v ∈ emb <$> rq) /\
      (forall x, x ∈ M <-> exists i rq, entry T x i [] rq)).
    { intros (ord & inv & outs & M & Hrun & Hord & Hinv & Hout & HM).
      exists ord, inv, outs, M.
      assert (forall x rq, enabled T ∅ x rq <-> exists i, entry T x i [] rq) as Hen.
      { intros x rq. unfold enabled. split.
        - intros (i & [|n NZ] & He & Hs); [eauto|]. exfalso. specialize (Hs n). set_solver.
        - intros (i & He). exists i, []. split; [done|]. set_solver. }
      split_and!; [done| | |].
      - split.
        + intros x i NZ rq He. destruct (Hord x i NZ rq He) as (os & Hos & Ho).
          exists os. split; [done|]. rewrite Ho, cnt_none; [done|]. intros ?. apply not_elem_of_empty.
        + intros v _. destruct (Hinv v) as [Hd Hm]. split; [done|]. intros i x rq. rewrite Hm.
          split.
          * intros (NZ & He & Hv). apply elem_of_list_fmap in Hv as (n & -> & Hn). eauto.
          * intros (n & NZ & -> & He & Hn). exists NZ. split; [done|]. apply elem_of_list_fmap. eauto.
      - intros v. rewrite Hout. setoid_rewrite Hen. naive_solver.
      - intros x. rewrite HM. setoid_rewrite Hen. naive_solver. }
    clear -Hkeys Hfr emb_inj. induction T as [|[x rs] T IH] using rev_ind.
    { exists ∅, ∅, outs0, []. simpl. split_and!; try done.
      - intros ? ? ? ? (? & ? & ?). set_solver.
      - intros v. rewrite lookup_empty. simpl. split; [constructor|]. unfold entry. set_solver.
      - unfold entry. set_solver.
      - unfold entry. set_solver. }
    rewrite fmap_app in Hkeys. simpl in Hkeys. apply NoDup_app in Hkeys as (Hk & Hx & _).
    destruct IH as (ord & inv & outs & M & Hrun & Hord & Hinv & Hout & HM); [done| |].
    { intros y i NZ rq He. apply (Hfr y i). apply entry_app. by left. }
    rewrite link_items_snoc, Hrun. simpl.
    assert (forall i NZ rq, ~ entry T x i NZ rq) as Hnx.
    { intros i NZ rq (rs' & Hin & _). apply (Hx x); [|set_solver].
      apply elem_of_list_fmap. by exists (x, rs'). }
    destruct (link_inj_ok x rs [] false outs inv) as (any1 & outs1 & inv1 & Hf & Ha & Ho & Hd & Hm).
    { intros NZ rq Hr. apply elem_of_list_lookup in Hr as [i Hi]. apply (Hfr x i). apply entry_app. by right. }
    { intros v i rq. intros Hi. apply (Hinv v) in Hi as (NZ & He & _). by apply Hnx in He. }
    rewrite Hf. simpl.
    exists (<[x := (fun r => Z.of_nat (length r.1)) <$> rs]> ord), inv1, outs1,
      (if any1 then M ++ [x] else M).
    split_and!.
    - f_equal. destruct any1; [|done]. by rewrite foldl_app.
    - intros y i NZ rq [He|[-> Hi]]%entry_app.
      + assert (y <> x) by (intros ->; by apply Hnx in He). rewrite lookup_insert_ne by done. eauto.
      + rewrite lookup_insert. eexists. split; [done|]. rewrite list_lookup_fmap, Hi. done.
    - intros v. split; [apply Hd, Hinv|]. intros i y rq. rewrite Hm. simpl.
      destruct (Hinv v) as [_ ->]. setoid_rewrite entry_app. split.
      + intros [(NZ & He & Hv)|(-> & k & NZ & -> & Hk' & Hv)]; [eauto|]. exists NZ. eauto.
      + intros (NZ & [He|[-> Hi]] & Hv); [eauto|]. right. split; [done|]. eauto.
    - intros v. rewrite Ho, Hout. setoid_rewrite entry_app. split.
      + intros [[?|(y & i & rq & He & Hv)]|(rq & Hr & Hv)]; [by left|by right; eauto 10|].
        right. apply elem_of_list_lookup in Hr as [i Hi]. exists x, i, rq. eauto.
      + intros [?|(y & i & rq & [He|[-> Hi]] & Hv)]; [by left; left|left; right; eauto 10|].
        right. exists rq. split; [|done]. by eapply elem_of_list_lookup_2.
    - intros y. transitivity (y ∈ M \/ y = x /\ any1 = true).
      { destruct any1; set_solver. }
      rewrite HM, Ha. setoid_rewrite entry_app. split.
      + intros [(i & rq & He)|[-> [?|(rq & Hr)]]]; [by eauto|done|].
        apply elem_of_list_lookup in Hr as [i Hi]. eauto.
      + intros (i & rq & [He|[-> Hi]]); [by eauto|]. right. split; [done|]. right. exists rq.
        by eapply elem_of_list_lookup_2.
  Qed.
End tables.

(** ** adjacency maps *)
Section adjm.
  Context {N : Type} `{Countable N}.
  Notation V := (vnode N).
  Implicit Types (g : adj N) (v w : V) (R : V -> V -> Prop) (D : V -> Prop).

  Definition GI g R D : Prop :=
    (forall v w, w ∈ ds_get g.1 v <-> R v w) /\ (forall v w, v ∈ ds_get g.2 w <-> R v w) /\
    (forall v, v ∈ dom g.1 <-> (exists w, R v w) \/ D v).

  Lemma GI_ext g R R' D : (forall v w, R v w <-> R' v w) -> GI g R D -> GI g R' D.
  Proof. intros HR (H1 & H2 & H3). unfold GI. split_and!; intros; [by rewrite H1|by rewrite H2|].
    rewrite H3. by setoid_rewrite HR. Qed.
  Lemma GI_empty : GI (∅, ∅) (fun _ _ => False) (fun _ => False).
  Proof. unfold GI, ds_get. simpl. split_and!; intros; rewrite ?lookup_empty, ?dom_empty_L; set_solver. Qed.
  Lemma GI_add g R D v w : GI g R D -> GI (add_link g v w) (fun a b => R a b \/ a = v /\ b = w) D.
  Proof.
    intros (H1 & H2 & H3). unfold GI, add_link. simpl. split_and!.
    - intros a b. rewrite ds_get_add. destruct (decide (a = v)) as [->|]; rewrite <- ?H1; set_solver.
    - intros a b. rewrite ds_get_add. destruct (decide (b = w)) as [->|]; rewrite <- ?H2; set_solver.
    - intros a. unfold ds_add. rewrite dom_insert, elem_of_union, elem_of_singleton, H3.
      split; [intros [->|[[b Hb]|Hd]]; eauto|]. intros [[b [Hb|[-> ->]]]|Hd]; eauto.
  Qed.
  Lemma GI_fold {A} (step : adj N -> A -> adj N) (Rs : A -> V -> V -> Prop) D (l : list A) :
    (forall g R a, GI g R D -> GI (step g a) (fun v w => R v w \/ Rs a v w) D) ->
    forall g R, GI g R D -> GI (foldl step g l) (fun v w => R v w \/ exists a, a ∈ l /\ Rs a v w) D.
  Proof.
    intros Hstep. induction l as [|a l IH]; intros g R Hg; simpl.
    - eapply GI_ext; [|exact Hg]. set_solver.
    - eapply GI_ext; [|apply IH, Hstep, Hg]. intros v w. simpl. setoid_rewrite elem_of_cons. naive_solver.
  Qed.
  Lemma GI_float g R D v f : GI g R D ->
    GI (float_link g v f) (fun a b => R a b \/ ((exists n, n ∈ f.1 /\ a = inl n /\ b = v) \/
                                               (exists n, n ∈ f.2 /\ a = v /\ b = inl n))) D.
  Proof.
    intros Hg. unfold float_link.
    eapply GI_ext; [|apply (GI_fold _ (fun n a b => a = v /\ b = inl n));
      [|apply (GI_fold _ (fun n a b => a = inl n /\ b = v)); [|exact Hg]]].
    - intros a b. simpl. naive_solver.
    - intros g' R' n Hg'. by apply GI_add.
    - intros g' R' n Hg'. by apply GI_add.
  Qed.
  Lemma GI_touch g R D v : GI g R D -> GI (ds_touch g.1 {[v]}, g.2) R (fun a => D a \/ a = v).
  Proof.
    intros (H1 & H2 & H3). unfold GI. simpl. split_and!; intros.
    - by rewrite ds_get_touch.
    - apply H2.
    - rewrite dom_touch, elem_of_union, elem_of_singleton, H3. tauto.
  Qed.
End adjm.

Section main.
  Context {N : Type} `{Countable N}.
  Notation V := (vnode N).
  Context (enum : gset V -> list V) (Henum : forall X, enum X ≡ₚ elements X).
  Context (pick : gset V -> option V)
          (Hpick : forall X n, pick X = Some n -> n ∈ X)
          (Hpick_none : forall X, pick X = None -> X = ∅).
  Context (js : list (injection N)) (bonds : list (N * N)).
  Context (isrc : list (N * entries N)) (iedge : list ((N * N) * entries N)).
  Context (Hsrc : wf_tab isrc) (Hedge : wf_tab iedge).
  Context (Hst : forall x NZ rq, (exists i, entry isrc x i NZ rq) <-> source_term js x NZ rq).
  Context (Het : forall a b NZ rq, (exists i, entry iedge (a, b) i NZ rq) <-> edge_term js a b NZ rq).
  Implicit Types (v w : V) (a b n : N) (A : gset V) (rq : list N) (s : cst (N := N)).
  Notation driven := (driven js bonds).
  Notation emb := (inl : N -> V).

  Definition drivenV v : Prop :=
    match v with
    | inl n => driven n
    | inr p => exists f, (inr p, f) ∈ float_nodes js /\ exists a, a ∈ f.1 /\ driven a
    end.
  Definition floatl v w : Prop := exists p f, (p, f) ∈ float_nodes js /\
    ((exists n, n ∈ f.1 /\ v = inl n /\ w = p) \/ (exists n, n ∈ f.2 /\ v = p /\ w = inl n)).
  Definition bondl v w : Prop := exists ab, ab ∈ bonds /\ v = inl ab.1 /\ w = inl ab.2.
  Definition enS := enabled emb isrc.
  Definition enE := enabled emb iedge.
  Definition edgel A v w : Prop := exists x, (exists rq, enE A x rq) /\ v = inl x.1 /\ w = inl x.2.
  Definition lnk A v w : Prop := (bondl v w \/ floatl v w) \/ edgel A v w.
  Definition outn A v : Prop := exists n, v = inl n /\
    ((exists j l, j ∈ js /\ i_req j = Some l /\ n ∈ l) \/
     (exists x rq, enS A x rq /\ n ∈ rq) \/ (exists x rq, enE A x rq /\ n ∈ rq)).

  Lemma float_nodes_term p f : (p, f) ∈ float_nodes js -> (exists q, p = inr q) /\ float_term js f.1 f.2.
  Proof.
    unfold float_nodes. rewrite elem_of_list_join. intros (l & Hp & Hl).
    apply elem_of_list_lookup in Hl as [ii Hl]. rewrite list_lookup_imap in Hl.
    destruct (omap i_floats js !! ii) as [fs|] eqn:Hfs; [|done]. simpl in Hl. injection Hl as <-.
    apply elem_of_list_lookup in Hp as [i Hp]. rewrite list_lookup_imap in Hp.
    destruct (fs !! i) as [f'|] eqn:Hf; [|done]. simpl in Hp. injection Hp as <- <-.
    split; [eauto|]. apply elem_of_list_lookup_2 in Hfs. apply elem_of_list_omap in Hfs as (j & Hj & Hjf).
    exists j, fs. destruct f'. split_and!; [done|done|]. by eapply elem_of_list_lookup_2.
  Qed.
  Lemma float_term_nodes ins outs : float_term js ins outs -> exists q, (inr q, (ins, outs)) ∈ float_nodes js.
  Proof.
    intros (j & fs & Hj & Hjf & Hf). unfold float_nodes.
    assert (fs ∈ omap i_floats js) as Hfs by (apply elem_of_list_omap; eauto).
    apply elem_of_list_lookup in Hfs as [ii Hii]. apply elem_of_list_lookup in Hf as [i Hi].
    exists (ii, i). rewrite elem_of_list_join.
    exists (imap (fun i f => (inr (ii, i), f)) fs). split.
    - apply (elem_of_list_lookup_2 _ i). rewrite list_lookup_imap, Hi. done.
    - apply (elem_of_list_lookup_2 _ ii). rewrite list_lookup_imap, Hii. done.
  Qed.
  Lemma float_nodes_fun p f f' : (p, f) ∈ float_nodes js -> (p, f') ∈ float_nodes js -> f = f'.
  Proof.
    unfold float_nodes. rewrite !elem_of_list_join. intros (l & Hp & Hl) (l' & Hp' & Hl').
    apply elem_of_list_lookup in Hl as [ii Hl]. rewrite list_lookup_imap in Hl.
    destruct (omap i_floats js !! ii) as [fs|] eqn:Hfs; [|done]. simpl in Hl. injection Hl as <-.
    apply elem_of_list_lookup in Hp as [i Hp]. rewrite list_lookup_imap in Hp.
    destruct (fs !! i) as [g|] eqn:Hf; [|done]. simpl in Hp. injection Hp as <- <-.
    apply elem_of_list_lookup in Hl' as [ii' Hl']. rewrite list_lookup_imap in Hl'.
    destruct (omap i_floats js !! ii') as [fs'|] eqn:Hfs'; [|done]. simpl in Hl'. injection Hl' as <-.
    apply elem_of_list_lookup in Hp' as [i' Hp']. rewrite list_lookup_imap in Hp'.
    destruct (fs' !! i') as [g'|] eqn:Hf'; [|done]. simpl in Hp'. injection Hp' as -> -> <-.
    congruence.
  Qed.

  Lemma enS_driven A x rq : (forall u, u ∈ A -> drivenV u) -> enS A x rq -> driven x.
  Proof.
    intros HA (i & NZ & He & Hs). eapply driven_source; [apply Hst; eauto|].
    intros n Hn. apply (HA (inl n)). by apply Hs.
  Qed.
  Lemma lnk_driven A v w : (forall u, u ∈ A -> drivenV u) -> lnk A v w -> drivenV v -> drivenV w.
  Proof.
    intros HA [[([a b] & Hb & -> & ->)|(p & f & Hf & Hc)]|([a b] & (rq & i & NZ & He & Hs) & -> & ->)] Hv; simpl in *.
    - by eapply driven_bond.
    - destruct (float_nodes_term p f Hf) as [[q ->] Ht].
      destruct Hc as [(n & Hn & -> & ->)|(n & Hn & -> & ->)]; simpl in *.
      + eauto.
      + destruct Hv as (f' & Hf' & a & Ha & Hd). rewrite (float_nodes_fun _ _ _ Hf' Hf) in Ha.
        by eapply driven_float.
    - eapply driven_edge; [apply Het; eauto| |done]. intros n Hn. apply (HA (inl n)). by apply Hs.
  Qed.

  Record SI s : Prop := {
    si_disj : pend s ## sub s;
    si_src : tinv emb isrc (sub s) (nord s) (sinv s);
    si_edge : tinv emb iedge (sub s) (eord s) (einv s);
    si_in : forall v, v ∈ inp s <-> exists x rq, v = inl x /\ enS (sub s) x rq;
    si_out : forall v, v ∈ outp s <-> outn (sub s) v;
    si_g : GI (cseq s, creq s) (lnk (sub s)) (fun v => v ∈ sub s);
    si_cl : forall v w, v ∈ sub s -> lnk (sub s) v w -> w ∈ sub s ∪ pend s ∪ pend2 s;
    si_cin : inp s ⊆ sub s ∪ pend s ∪ pend2 s;
    si_snd : forall v, v ∈ sub s ∪ pend s ∪ pend2 s -> drivenV v;
  }.

  Lemma init_ok : SI (coh_init js bonds isrc iedge) /\ pend2 (coh_init js bonds isrc iedge) = ∅ /\
    sub (coh_init js bonds isrc iedge) = ∅.
  Proof.
    unfold coh_init.
    set (outs0 := list_to_set _). set (g0 := foldl _ _ (float_nodes js)).
    assert (GI g0 (fun v w => bondl v w \/ floatl v w) (fun _ => False)) as Hg0.
    { eapply GI_ext; [|apply (GI_fold _ (fun pf v w => (exists n, n ∈ pf.2.1 /\ v = inl n /\ w = pf.1) \/
                                            (exists n, n ∈ pf.2.2 /\ v = pf.1 /\ w = inl n)));
        [|apply (GI_fold _ (fun ab v w => v = inl ab.1 /\ w = inl ab.2)); [|exact GI_empty]]].
      - intros v w. simpl. unfold bondl, floatl. split.
        + intros [[[]|?]|([p f] & ?)]; [by left|]. right. exists p, f. done.
        + intros [?|(p & f & ?)]; [by left; right|]. right. exists (p, f). done.
      - intros g R [p f] Hg. by apply GI_float.
      - intros g R [a b] Hg. by apply GI_add. }
    destruct (link_items_ok emb (fun (pend : gset V) x => {[inl x : V]} ∪ pend) outs0 ∅ isrc Hsrc)
      as (ord & inv & outs1 & M & -> & Ht1 & Ho1 & HM).
    destruct (link_items_ok emb (fun (g : adj N) '(a, b) => add_link (N := N) g (inl a) (inl b)) outs1 g0 iedge Hedge)
      as (eord & einv & outs2 & ME & -> & Ht2 & Ho2 & HME).
    assert (forall v, v ∈ foldl (fun (pend : gset V) x => {[inl x : V]} ∪ pend) ∅ M <-> exists x, v = inl x /\ x ∈ M) as Hp.
    { intros v. cut (forall P : gset V, v ∈ foldl (fun (pend : gset V) x => {[inl x : V]} ∪ pend) P M <->
         v ∈ P \/ exists x, v = inl x /\ x ∈ M).
      { intros ->. set_solver. }
      clear. induction M as [|x M IH]; intros P; simpl; [set_solver|]. rewrite IH. set_solver. }
    set (pend0 := foldl (fun (pend : gset V) x => {[inl x : V]} ∪ pend) ∅ M) in *. clearbody pend0.
    assert (GI (foldl (fun (g : adj N) '(a, b) => add_link (N := N) g (inl a) (inl b)) g0 ME) (lnk ∅) (fun _ => False)) as Hg1.
    { eapply GI_ext; [|apply (GI_fold _ (fun ab v w => v = inl ab.1 /\ w = inl ab.2)); [|exact Hg0]].
      - intros v w. simpl. unfold lnk, edgel. setoid_rewrite HME. done.
      - intros g R [a b] Hg. by apply GI_add. }
    destruct (foldl _ g0 ME) as [seq req]. simpl. split; [|done].
    split; simpl.
    - set_solver.
    - done.
    - done.
    - intros v. rewrite Hp. setoid_rewrite HM. naive_solver.
    - intros v. rewrite Ho2, Ho1. unfold outn, outs0. rewrite elem_of_list_to_set.
      rewrite !elem_of_list_fmap. split.
      + intros [[(n & -> & Hn)|(x & rq & Hx & (n & -> & Hn)%elem_of_list_fmap)]
               |(x & rq & Hx & (n & -> & Hn)%elem_of_list_fmap)].
        * exists n. split; [done|]. left. apply elem_of_list_join in Hn as (l & Hn & Hl).
          apply elem_of_list_omap in Hl as (j & Hj & Hjl). eauto.
        * exists n. split; [done|]. right. left. eauto.
        * exists n. split; [done|]. right. right. eauto.
      + intros (n & -> & [(j & l & Hj & Hl & Hn)|[(x & rq & Hx & Hn)|(x & rq & Hx & Hn)]]).
        * left. left. exists n. split; [done|]. apply elem_of_list_join. exists l. split; [done|].
          apply elem_of_list_omap. eauto.
        * left. right. exists x, rq. split; [done|]. apply elem_of_list_fmap. eauto.
        * right. exists x, rq. split; [done|]. apply elem_of_list_fmap. eauto.
    - eapply GI_ext; [done|]. destruct Hg1 as (? & ? & Hd). split_and!; try done.
      intros v. rewrite Hd. set_solver.
    - set_solver.
    - set_solver.
    - intros v Hv. assert (v ∈ pend0) as Hv' by set_solver. apply Hp in Hv' as (x & -> & Hx).
      apply HM in Hx as [rq Hx]. simpl. eapply (enS_driven ∅); [set_solver|done].
  Qed.

  Lemma fire_src_fold A (F : list (N * list N)) : forall (p2 ins outs : gset V),
    exists p2' ins' outs', foldl (fun t e => fire_src A t e.1 e.2) (p2, ins, outs) F = (p2', ins', outs') /\
      (forall w, w ∈ p2' <-> w ∈ p2 \/ exists x rq, (x, rq) ∈ F /\ w = inl x /\ w ∉ A) /\
      (forall w, w ∈ ins' <-> w ∈ ins \/ exists x rq, (x, rq) ∈ F /\ w = inl x) /\
      (forall w, w ∈ outs' <-> w ∈ outs \/ exists x rq, (x, rq) ∈ F /\ w ∈ emb <$> rq).
  Proof.
    induction F as [|[x rq] F IH]; intros p2 ins outs; simpl.
    { exists p2, ins, outs. set_solver. }
    destruct (IH (if decide (inl x ∈ A) then p2 else {[inl x]} ∪ p2) ({[inl x]} ∪ ins)
                 (list_to_set (inl <$> rq) ∪ outs)) as (p2' & ins' & outs' & Hf & H1 & H2 & H3).
    exists p2', ins', outs'. split; [exact Hf|]. clear IH Hf. setoid_rewrite elem_of_cons. split_and!.
    - intros w. rewrite H1. clear. destruct (decide (inl x ∈ A)) as [Hx|Hx];
        rewrite ?elem_of_union, ?elem_of_singleton; naive_solver.
    - intros w. rewrite H2, elem_of_union, elem_of_singleton. clear. naive_solver.
    - intros w. rewrite H3, elem_of_union, elem_of_list_to_set. clear. naive_solver.
  Qed.
  Lemma fire_edge_fold A (F : list (N * N * list N)) : forall (p2 outs : gset V) g R D, GI g R D ->
    exists p2' outs' g', foldl (fun t e => fire_edge A t e.1 e.2) (p2, outs, g) F = (p2', outs', g') /\
      (forall w, w ∈ p2' <-> w ∈ p2 \/ exists x rq, (x, rq) ∈ F /\ inl x.1 ∈ A /\ w = inl x.2 /\ w ∉ A) /\
      (forall w, w ∈ outs' <-> w ∈ outs \/ exists x rq, (x, rq) ∈ F /\ w ∈ emb <$> rq) /\
      GI g' (fun v w => R v w \/ exists x rq, (x, rq) ∈ F /\ v = inl x.1 /\ w = inl x.2) D.
  Proof.
    induction F as [|[[a b] rq] F IH]; intros p2 outs g R D Hg.
    { exists p2, outs, g. split; [done|]. split_and!.
      - intros w. split; [by left|]. by intros [?|(? & ? & ?%elem_of_nil & _)].
      - intros w. split; [by left|]. by intros [?|(? & ? & ?%elem_of_nil & _)].
      - eapply GI_ext; [|exact Hg]. intros v w. split; [by left|].
        by intros [?|(? & ? & ?%elem_of_nil & _)]. }
    set (p2a := if decide (inl a ∈ A) then (if decide (inl b ∈ A) then p2 else {[inl b]} ∪ p2) else p2).
    destruct (IH p2a (list_to_set (inl <$> rq) ∪ outs) (add_link g (inl a) (inl b)) _ D
                (GI_add g R D (inl a) (inl b) Hg)) as (p2' & outs' & g' & Hf & H1 & H2 & H3).
    exists p2', outs', g'. split; [exact Hf|]. clear IH Hf. split_and!.
    - intros w. setoid_rewrite elem_of_cons. rewrite H1. unfold p2a. clear. split.
      + intros [Hw|(x & rq' & ? & ?)]; [|by eauto 10].
        destruct (decide (inl a ∈ A)); [|by left]. destruct (decide (inl b ∈ A)); [by left|].
        apply elem_of_union in Hw as [->%elem_of_singleton|?]; [|by left].
        right. exists (a, b), rq. split_and!; auto.
      + intros [Hw|(x & rq' & [[= -> ->]|Hx] & Ha & -> & Hb)]; [|simpl in *|by eauto 10].
        * left. repeat case_decide; set_solver.
        * left. rewrite decide_True, decide_False by done. set_solver.
    - intros w. setoid_rewrite elem_of_cons. rewrite H2, elem_of_union, elem_of_list_to_set. clear. naive_solver.
    - eapply GI_ext; [|exact H3]. intros v w. setoid_rewrite elem_of_cons. simpl. clear. split.
      + intros [[?|[-> ->]]|(x & rq' & ? & ?)]; [by left| |by eauto 10]. right. exists (a, b), rq. auto.
      + intros [?|(x & rq' & [[= -> ->]|?] & ?)]; [by eauto|left; right; done|by eauto 10].
  Qed.

  Lemma visit_ok s v : SI s -> v ∈ pend s ->
    exists s', visit enum s v = Ok s' /\ SI s' /\ sub s' = {[v]} ∪ sub s.
  Proof.
    intros [Hdisj Ht1 Ht2 Hin Hout Hg Hcl Hcin Hsnd] Hv.
    assert (v ∉ sub s) as Hvs by (intros Hc; by apply (Hdisj v)).
    unfold visit. set (A := {[v]} ∪ sub s).
    rewrite push_spec. set (pend' := (pend s ∖ {[v]}) ∪ _).
    assert (forall w, w ∈ pend' <-> (w ∈ pend s /\ w <> v) \/ (w ∈ ds_get (cseq s) v /\ w ∉ A)) as Hp'.
    { intros w. unfold pend'. rewrite elem_of_union, !elem_of_difference, elem_of_list_to_set,
        elem_of_singleton, (elem_of_enum enum Henum). done. }
    clearbody pend'.
    destruct (dec_loop_ok emb (fire_src A) isrc (sub s) (nord s) (sinv s) v (pend2 s, inp s, outp s) Hsrc Ht1 Hvs)
      as (ord' & F1 & -> & Ht1' & HF1). simpl.
    destruct (fire_src_fold A F1 (pend2 s) (inp s) (outp s)) as (p2a & insa & outsa & -> & Hp2a & Hina & Houta).
    destruct (dec_loop_ok emb (fire_edge A) iedge (sub s) (eord s) (einv s) v
      (p2a, outsa, (ds_touch (cseq s) {[v]}, creq s)) Hedge Ht2 Hvs)
      as (eord' & F2 & -> & Ht2' & HF2). simpl.
    destruct (fire_edge_fold A F2 p2a outsa (ds_touch (cseq s) {[v]}, creq s) (lnk (sub s))
       (fun w => w ∈ sub s \/ w = v) (GI_touch _ _ _ v Hg)) as (p2b & outsb & [seq req] & -> & Hp2b & Houtb & Hgb).
    eexists. split; [reflexivity|]. split; [|done].
    assert (forall x rq, enS A x rq <-> enS (sub s) x rq \/ (x, rq) ∈ F1) as HeS.
    { intros x rq. apply enabled_add; [apply _|exact HF1]. }
    assert (forall x rq, enE A x rq <-> enE (sub s) x rq \/ (x, rq) ∈ F2) as HeE.
    { intros x rq. apply enabled_add; [apply _|exact HF2]. }
    assert (forall v w, lnk A v w <-> lnk (sub s) v w \/ exists x rq, (x, rq) ∈ F2 /\ v = inl x.1 /\ w = inl x.2) as Hl.
    { intros v' w'. unfold lnk, edgel. setoid_rewrite HeE. clear. naive_solver. }
    destruct Hg as (Hgs & Hgr & Hgd). simpl in Hgs, Hgr, Hgd.
    assert (forall u, u ∈ A <-> u = v \/ u ∈ sub s) as HA.
    { intros u. unfold A. by rewrite elem_of_union, elem_of_singleton. }
    assert (forall u (X Y Z : gset V), u ∈ X ∪ Y ∪ Z <-> u ∈ X \/ u ∈ Y \/ u ∈ Z) as H3.
    { intros. rewrite !elem_of_union. tauto. }
    assert (forall u, u ∈ A -> drivenV u) as HdA.
    { intros u Hu. apply Hsnd. apply H3. apply HA in Hu as [->|Hu]; auto. }
    assert (forall u, u ∈ sub s ∪ pend s ∪ pend2 s -> u ∈ A ∪ pend' ∪ p2b) as Hkeep.
    { intros u. rewrite !H3. intros [Hu|[Hu|Hu]].
      - left. apply HA. auto.
      - destruct (decide (u = v)) as [->|Hne]; [left; apply HA; auto|]. right. left. apply Hp'. auto.
      - right. right. apply Hp2b. left. apply Hp2a. auto. }
    split; cbn [sub pend pend2 inp outp nord eord sinv einv cseq creq].
    - intros w Hw Hw'. apply Hp' in Hw as [[Hw Hne]|[_ Hw]]; [|done].
      apply HA in Hw' as [?|Hw']; [done|]. by apply (Hdisj w).
    - exact Ht1'.
    - exact Ht2'.
    - intros w. rewrite Hina, Hin. setoid_rewrite HeS. clear. naive_solver.
    - intros w. rewrite Houtb, Houta, Hout. unfold outn. setoid_rewrite HeS. setoid_rewrite HeE.
      setoid_rewrite elem_of_list_fmap. clear. naive_solver.
    - eapply GI_ext; [intros; symmetry; apply Hl|].
      destruct Hgb as (Hg1 & Hg2 & Hg3). split_and!; [done|done|]. intros w. rewrite Hg3, HA. tauto.
    - intros u w Hu Hlw.
      destruct (decide (w ∈ A)) as [Hw|Hw]; [apply H3; by left|].
      apply Hl in Hlw as [Hlw|([a b] & rq & HF & -> & ->)].
      + apply HA in Hu as [->|Hu].
        * apply H3. right. left. apply Hp'. right. split; [|done]. by apply Hgs.
        * apply Hkeep. by eapply Hcl.
      + simpl in *. apply H3. right. right. apply Hp2b. right. exists (a, b), rq. done.
    - intros w Hw. apply Hina in Hw as [Hw|(x & rq & HF & ->)].
      + by apply Hkeep, Hcin.
      + destruct (decide (inl x ∈ A)) as [Hx|Hx]; [apply H3; by left|].
        apply H3. right. right. apply Hp2b. left. apply Hp2a. right. exists x, rq. done.
    - intros w Hw. apply H3 in Hw as [Hw|[Hw|Hw]].
      + by apply HdA.
      + apply Hp' in Hw as [[Hw _]|[Hw _]]; [apply Hsnd, H3; auto|].
        apply (lnk_driven A v w HdA); [|apply HdA, HA; auto]. apply Hl. left. by apply Hgs.
      + apply Hp2b in Hw as [Hw|([a b] & rq & HF & Ha & -> & Hb)].
        * apply Hp2a in Hw as [Hw|(x & rq & HF & -> & Hx)]; [apply Hsnd, H3; auto|].
          apply (enS_driven A x rq HdA). apply HeS. by right.
        * apply (lnk_driven A (inl a) (inl b) HdA); [|by apply HdA].
          apply Hl. right. exists (a, b), rq. done.
  Qed.

  Lemma sweep_ok f : forall s s', SI s -> sweep enum pick f s = Ok s' -> SI s' /\ pend s' = ∅.
  Proof.
    induction f as [|f IH]; intros s s' HS; simpl; destruct (pick (pend s)) as [v|] eqn:Hp; intros Hrun.
    - done.
    - injection Hrun as <-. auto.
    - destruct (visit_ok s v HS (Hpick _ _ Hp)) as (s1 & Hv & HS1 & _). rewrite Hv in Hrun. simpl in Hrun.
      by apply (IH s1).
    - injection Hrun as <-. auto.
  Qed.
  Lemma SI_repend s p p2 : SI s -> p ## sub s -> sub s ∪ p ∪ p2 ≡ sub s ∪ pend s ∪ pend2 s ->
    SI (Cst (sub s) p p2 (inp s) (outp s) (nord s) (eord s) (sinv s) (einv s) (cseq s) (creq s)).
  Proof.
    intros [Hdisj Ht1 Ht2 Hin Hout Hg Hcl Hcin Hsnd] Hd Heq.
    split; cbn [sub pend pend2 inp outp nord eord sinv einv cseq creq]; try done.
    - intros v w Hv Hl. apply Heq. by eapply Hcl.
    - by rewrite Heq.
    - intros v Hv. apply Hsnd. by apply Heq.
  Qed.
  Lemma pass_SI s : SI s -> pend s = ∅ ->
    SI (Cst (sub s) (pend2 s ∖ sub s) ∅ (inp s) (outp s) (nord s) (eord s) (sinv s) (einv s) (cseq s) (creq s)).
  Proof.
    intros HS Hp. apply SI_repend; [done| |].
    - clear. set_solver.
    - rewrite Hp. intros x. rewrite !elem_of_union, elem_of_difference, !elem_of_empty.
      clear. destruct (decide (x ∈ sub s)); tauto.
  Qed.
  Lemma passes_ok f : forall o s o' s', SI s -> passes enum pick f o s = Ok (o', s') ->
    SI s' /\ pend s' = ∅ /\ pend2 s' ⊆ sub s'.
  Proof.
    induction f as [|f IH]; intros o s o' s' HS; simpl; [done|].
    destruct (sweep enum pick f s) as [s1|] eqn:Hsw; [|done]. simpl.
    destruct (sweep_ok f s s1 HS Hsw) as [HS1 Hp1].
    destruct (decide (pend2 s1 ∖ sub s1 = ∅)) as [He|He].
    - intros [= <- <-]. rewrite He. cbn [sub pend pend2].
      assert (pend2 s1 ⊆ sub s1) as Hsub.
      { clear -He. intros x Hx. destruct (decide (x ∈ sub s1)); [done|].
        assert (x ∈ pend2 s1 ∖ sub s1) as Hc by set_solver. rewrite He in Hc. set_solver. }
      split; [|done]. apply SI_repend; [done|clear; set_solver|]. by rewrite Hp1.
    - apply IH. by apply pass_SI.
  Qed.

  (** *** termination *)
  Definition universe : gset V := list_to_set
    ((emb <$> isrc.*1) ++ ((fun x => emb x.2) <$> iedge.*1) ++ ((fun x => emb x.2) <$> bonds) ++
     (float_nodes js).*1 ++ (emb <$> mjoin (snd <$> (float_nodes js).*2))).
  Lemma drivenV_universe v : drivenV v -> v ∈ universe.
  Proof.
    unfold universe. rewrite elem_of_list_to_set, !elem_of_app. destruct v as [n|p]; simpl.
    - intros [x NZ rq Hs _|a b Hb _|a b NZ rq He _ _|ins outs a b Ht Ha Hb _].
      + left. apply Hst in Hs as (i & rs & Hin & _). apply elem_of_list_fmap. exists x. split; [done|].
        apply elem_of_list_fmap. by exists (x, rs).
      + right. right. left. apply elem_of_list_fmap. by exists (a, b).
      + right. left. apply Het in He as (i & rs & Hin & _). apply elem_of_list_fmap. exists (a, b).
        split; [done|]. apply elem_of_list_fmap. by exists ((a, b), rs).
      + do 4 right. apply elem_of_list_fmap. exists b. split; [done|]. apply elem_of_list_join.
        exists outs. split; [done|]. apply float_term_nodes in Ht as [q Hq].
        apply elem_of_list_fmap. exists (ins, outs). split; [done|]. apply elem_of_list_fmap.
        by exists (inr q, (ins, outs)).
    - intros (f & Hf & _). do 3 right. left. apply elem_of_list_fmap. by exists (inr p, f).
  Qed.
  Lemma SI_sub s : SI s -> sub s ∪ pend s ⊆ universe.
  Proof. intros HS v Hv. apply drivenV_universe, (si_snd s HS). rewrite elem_of_union. by left. Qed.
  Definition left_ s : nat := size (universe ∖ sub s).
  Lemma visit_left s s' v : SI s -> v ∈ pend s -> sub s' = {[v]} ∪ sub s -> left_ s' < left_ s.
  Proof.
    intros HS Hv Heq. unfold left_. rewrite Heq. apply subset_size.
    assert (v ∈ universe) as Hu by (apply (SI_sub s HS), elem_of_union; by right).
    pose proof (si_disj s HS v Hv) as Hd. revert Hu Hd. generalize universe (sub s). clear.
    intros U X Hu Hd. split; [set_solver|]. intros Hc.
    assert (v ∈ U ∖ X) as Hin by set_solver. apply Hc in Hin. set_solver.
  Qed.
  Lemma sweep_total f : forall s, SI s -> left_ s <= f ->
    exists s', sweep enum pick f s = Ok s' /\ left_ s' <= left_ s /\ (pend s <> ∅ -> left_ s' < left_ s).
  Proof.
    induction f as [|f IH]; intros s HS Hle; simpl; destruct (pick (pend s)) as [v|] eqn:Hp.
    - exfalso. apply Hpick in Hp. destruct (visit_ok s v HS Hp) as (s1 & _ & _ & Hs1).
      pose proof (visit_left s s1 v HS Hp Hs1). lia.
    - apply Hpick_none in Hp. exists s. split; [done|]. split; [done|]. done.
    - pose proof (Hpick _ _ Hp) as Hv. destruct (visit_ok s v HS Hv) as (s1 & -> & HS1 & Hs1). simpl.
      pose proof (visit_left s s1 v HS Hv Hs1).
      destruct (IH s1 HS1) as (s' & -> & Hl & _); [lia|]. exists s'. split; [done|]. split; [lia|]. intros _. lia.
    - apply Hpick_none in Hp. exists s. split; [done|]. split; [done|]. done.
  Qed.
  Lemma passes_total f : forall o s, SI s -> (pend s = ∅ -> pend2 s ⊆ sub s) -> left_ s < f ->
    exists r, passes enum pick f o s = Ok r.
  Proof.
    induction f as [|f IH]; intros o s HS Hne Hlt; [lia|]. simpl.
    destruct (sweep_total f s HS) as (s1 & Hsw & Hl1 & Hl2); [lia|]. rewrite Hsw. simpl.
    destruct (sweep_ok f s s1 HS Hsw) as [HS1 Hp1].
    destruct (decide (pend2 s1 ∖ sub s1 = ∅)) as [He|He]; [eauto|].
    apply IH; cbn [sub pend pend2]; [by apply pass_SI|done|].
    unfold left_ in *. cbn [sub]. destruct (decide (pend s = ∅)) as [Hp|Hp]; [|specialize (Hl2 Hp); lia].
    exfalso. apply He. specialize (Hne Hp).
    destruct f; simpl in Hsw; (destruct (pick (pend s)) as [v|] eqn:Hpk;
      [apply Hpick in Hpk; rewrite Hp in Hpk; set_solver|]); injection Hsw as <-; clear -Hne; set_solver.
  Qed.

  (** *** what the loop computes *)
  Lemma final_sub s : SI s -> pend s = ∅ -> pend2 s ⊆ sub s -> forall v, v ∈ sub s <-> drivenV v.
  Proof.
    intros HS Hp Hp2.
    assert (forall v, v ∈ sub s ∪ pend s ∪ pend2 s -> v ∈ sub s) as Hall.
    { intros v. rewrite Hp, !elem_of_union. intros [[?|?]|?]; [done|set_solver|by apply Hp2]. }
    assert (forall n, driven n -> inl n ∈ sub s) as Hd.
    { intros n Hn. induction Hn as [x NZ rq Hs _ IH|a b Hb _ IH|a b NZ rq He _ IH1 _ IH|ins outs a b Ht Ha Hb _ IH].
      - apply Hall, (si_cin s HS), (si_in s HS). exists x, rq. split; [done|].
        apply Hst in Hs as [i Hi]. exists i, NZ. done.
      - apply Hall, (si_cl s HS (inl a)); [done|]. left. left. by exists (a, b).
      - apply Hall, (si_cl s HS (inl a)); [done|]. right. exists (a, b). split; [|done]. exists rq.
        apply Het in He as [i Hi]. exists i, NZ. done.
      - apply float_term_nodes in Ht as [q Hq].
        assert (inr q ∈ sub s) as Hqs.
        { apply Hall, (si_cl s HS (inl a)); [done|]. left. right. exists (inr q), (ins, outs). split; [done|].
          left. by exists a. }
        apply Hall, (si_cl s HS (inr q)); [done|]. left. right. exists (inr q), (ins, outs). split; [done|].
        right. by exists b. }
    intros v. split.
    - intros Hv. apply (si_snd s HS). rewrite !elem_of_union. by left; left.
    - destruct v as [n|p]; [apply Hd|]. intros (f & Hf & a & Ha & Hda).
      apply Hall, (si_cl s HS (inl a)); [by apply Hd|]. left. right. exists (inr p), f. split; [done|].
      left. by exists a.
  Qed.
  Lemma final_enS s x rq : (forall v, v ∈ sub s <-> drivenV v) ->
    enS (sub s) x rq <-> exists NZ, source_term js x NZ rq /\ forall n, n ∈ NZ -> driven n.
  Proof.
    intros Hs. split.
    - intros (i & NZ & He & Hn). exists NZ. split; [apply Hst; eauto|]. intros n Hin. apply (Hs (inl n)). by apply Hn.
    - intros (NZ & He & Hn). apply Hst in He as [i He]. exists i, NZ. split; [done|].
      intros n Hin. apply (Hs (inl n)). by apply Hn.
  Qed.
  Lemma final_enE s a b rq : (forall v, v ∈ sub s <-> drivenV v) ->
    enE (sub s) (a, b) rq <-> exists NZ, edge_term js a b NZ rq /\ forall n, n ∈ NZ -> driven n.
  Proof.
    intros Hs. split.
    - intros (i & NZ & He & Hn). exists NZ. split; [apply Het; eauto|]. intros n Hin. apply (Hs (inl n)). by apply Hn.
    - intros (NZ & He & Hn). apply Het in He as [i He]. exists i, NZ. split; [done|].
      intros n Hin. apply (Hs (inl n)). by apply Hn.
  Qed.
End main.
