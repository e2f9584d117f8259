(** Lemmas for NoiProps.v: the sums of CSD_builds. *)
From Coq Require Import Reals Lra.
From stdpp Require Import base tactics numbers gmap list.
From Verif Require Import Fld Py Herm SigModel NoiModel NoiSpec NoiProofs.

Section noise.
  Context {Port Key Obj Name : Type}.
  Context `{Countable Port, Countable Key, Countable Obj, Countable Name}.
  Notation pk := (Port * Key)%type.
  Notation nmap := (gmap pk (gmap pk (list (pk * pk * Obj)))).
  Notation collect := (gmap Obj (gmap (Name * Name) C_fld)).
  Notation St := (C_fld * collect)%type.
  Add Field FCN3 : (f_theory C_fld).
  Implicit Types (adjust : R) (expect : Obj -> pk -> pk -> C_fld) (pm port_map : list (Name * Port)) (coupling : list ((pk * pk) * C_fld)) (c : collect) (nm : nmap).

  Definition term (adjust : R) (expect : Obj -> pk -> pk -> C_fld) (P N : Name) (v : pk * pk * Obj) (c1 c2 : C_fld) : C_fld :=
    reported P N (cre adjust * expect v.2 v.1.1 v.1.2 * c1 * c2)%F.
  Definition term_of adjust expect (P N : Name) (o : Obj) (v : pk * pk * Obj) (c1 c2 : C_fld) : C_fld :=
    if decide (v.2 = o) then term adjust expect P N v c1 c2 else 0%F.

  Lemma by_source_add o p x c o' p' :
    by_source (collect_add o p x c) o' p' = (by_source c o' p' + (if decide (o = o') then if decide (p = p') then x else 0 else 0))%F.
  Proof.
    unfold by_source, collect_add. destruct (decide (o = o')) as [->|Ho].
    - rewrite lookup_insert. cbn [mbind option_bind]. destruct (decide (p = p')) as [->|Hp].
      + rewrite lookup_insert. cbn [from_option Datatypes.id]. f_equal. destruct (c !! o'); [done|]. cbn [from_option Datatypes.id mbind option_bind]. by rewrite lookup_empty.
      + rewrite lookup_insert_ne by done. transitivity (default (0%F : C_fld) (default ∅ (c !! o') !! p')); [|ring_simplify].
        * done.
        * destruct (c !! o'); [done|]. cbn [from_option Datatypes.id mbind option_bind]. by rewrite lookup_empty.
    - rewrite lookup_insert_ne by done. ring.
  Qed.

  Lemma foldl_adds {A} (g : St -> A -> St) (a : A -> C_fld) (b : A -> Obj -> Name * Name -> C_fld) l :
    (forall st x, (g st x).1 = (st.1 + a x)%F /\ forall o p, by_source (g st x).2 o p = (by_source st.2 o p + b x o p)%F) ->
    forall st, (foldl g st l).1 = (st.1 + fsum a l)%F /\ forall o p, by_source (foldl g st l).2 o p = (by_source st.2 o p + fsum (fun x => b x o p) l)%F.
  Proof.
    intros Hg. induction l as [|x l IH]; intros st; cbn [foldl fsum].
    - split; [ring|intros; ring].
    - destruct (IH (g st x)) as [I1 I2]. destruct (Hg st x) as [G1 G2]. split; [rewrite I1, G1; ring|]. intros o p. rewrite I2, G2. ring.
  Qed.
  Definition inner_loop adjust expect nm (P N : Name) (kP kN : list (pk * C_fld)) (st : St) : St :=
    foldl (fun st z => let '(pk1, cplg1) := z in
      match nm !! pk1 with
      | None => st
      | Some nmap_inner =>
          foldl (fun st w => let '(pk2, cplg2) := w in
            match nmap_inner !! pk2 with
            | None => st
            | Some vals =>
                foldl (fun st v => let '(p1, p2, nobj) := v in
                  let pspec := (cre adjust * expect nobj p1 p2 * cplg1 * cplg2)%F in
                  let pspec := if decide (P = N) then cre (fst pspec) else pspec in
                  ((st.1 + pspec)%F, collect_add nobj (P, N) pspec st.2)) st vals
            end) st kN
      end) st kP.
  Lemma inner_loop_spec adjust expect nm P N kP kN st :
    (inner_loop adjust expect nm P N kP kN st).1 = (st.1 + at_pair nm kP kN (term adjust expect P N))%F /\
    forall o p, by_source (inner_loop adjust expect nm P N kP kN st).2 o p =
      (by_source st.2 o p + (if decide ((P, N) = p) then at_pair nm kP kN (term_of adjust expect P N o) else 0))%F.
  Proof.
    unfold inner_loop.
    match goal with |- context [foldl ?g st kP] => destruct (foldl_adds g
      (fun z => fsum (fun w => fsum (fun v => term adjust expect P N v z.2 w.2) (nm_get nm z.1 w.1)) kN)
      (fun z o p => if decide ((P, N) = p) then fsum (fun w => fsum (fun v => term_of adjust expect P N o v z.2 w.2) (nm_get nm z.1 w.1)) kN else 0%F) kP) with (st := st) as [I1 I2] end.
    2:{ split; [apply I1|]. intros o p. rewrite I2. f_equal. destruct (decide ((P, N) = p)); [done|]. by apply fsum_0. }
    clear st. intros st [pk1 c1]. cbn [fst snd]. destruct (nm !! pk1) as [inner|] eqn:E1.
    2:{ assert (Z : forall b, nm_get nm pk1 b = []) by (intros b; unfold nm_get; by rewrite E1). split.
        - rewrite fsum_0; [ring|]. intros w _. by rewrite Z.
        - intros o p. rewrite fsum_0; [destruct (decide _); ring|]. intros w _. by rewrite Z. }
    match goal with |- context [foldl ?g st kN] => destruct (foldl_adds g
      (fun w => fsum (fun v => term adjust expect P N v c1 w.2) (nm_get nm pk1 w.1))
      (fun w o p => if decide ((P, N) = p) then fsum (fun v => term_of adjust expect P N o v c1 w.2) (nm_get nm pk1 w.1) else 0%F) kN) with (st := st) as [I1 I2] end.
    2:{ split; [apply I1|]. intros o p. rewrite I2. f_equal. destruct (decide ((P, N) = p)); [done|]. by apply fsum_0. }
    clear st. intros st [pk2 c2]. cbn [fst snd]. unfold nm_get. rewrite E1. cbn [from_option Datatypes.id]. destruct (inner !! pk2) as [vals|] eqn:E2; cbn [from_option Datatypes.id].
    2:{ cbn [fsum]. split; [ring|]. intros o p. destruct (decide _); ring. }
    match goal with |- context [foldl ?g st vals] => destruct (foldl_adds g
      (fun v => term adjust expect P N v c1 c2)
      (fun v o p => if decide ((P, N) = p) then term_of adjust expect P N o v c1 c2 else 0%F) vals) with (st := st) as [I1 I2] end.
    2:{ split; [apply I1|]. intros o p. rewrite I2. f_equal. destruct (decide ((P, N) = p)); [done|]. by apply fsum_0. }
    clear st. intros st [[p1 p2] nobj]. cbn [fst snd]. split; [done|]. intros o p. rewrite by_source_add. f_equal. unfold term_of, term, reported. cbn [fst snd].
    destruct (decide (nobj = o)), (decide ((P, N) = p)); done.
  Qed.
  Lemma CSD_unfold adjust expect nm coupling pm kP kN :
    CSD_builds adjust expect nm coupling pm kP kN =
    foldl (fun st x => foldl (fun st y =>
        (<[(x.1, y.1) := (inner_loop adjust expect nm x.1 y.1 x.2 y.2 (0%F, st.2)).1]> st.1, (inner_loop adjust expect nm x.1 y.1 x.2 y.2 (0%F, st.2)).2))
        st (kvecs coupling pm kN))
      (foldl (fun s x => foldl (fun s y => <[(x.1, y.1) := (0%F : C_fld)]> s) s pm) ∅ pm, ∅) (kvecs coupling pm kP).
  Proof.
    unfold CSD_builds. apply foldl_ext. intros st [P kvP] _. cbn [fst snd]. apply foldl_ext. intros st' [N kvN] _. cbn [fst snd]. fold (inner_loop adjust expect nm P N kvP kvN (0%F, st'.2)).
    by destruct (inner_loop _ _ _ _ _ _ _ _).
  Qed.
  (** *** tables filled by a double loop *)
  Lemma foldl_fst {A S T} (g : S * T -> A -> S * T) (h : S -> A -> S) l : (forall st x, (g st x).1 = h st.1 x) -> forall st, (foldl g st l).1 = foldl h st.1 l.
  Proof. intros Hg. induction l as [|x l IH]; intros st; [done|]. cbn [foldl]. by rewrite IH, Hg. Qed.
  Lemma ins1_lookup {B2} (V : Name * B2 -> C_fld) (a : Name) (l2 : list (Name * B2)) p q : NoDup l2.*1 -> forall s : gmap (Name * Name) C_fld,
    foldl (fun s y => <[(a, y.1) := V y]> s) s l2 !! (p, q) = if decide (a = p) then match dict_get q l2 with Some v => Some (V (q, v)) | None => s !! (p, q) end else s !! (p, q).
  Proof.
    induction l2 as [|[q' v] l2 IH]; intros Hd s; cbn [foldl dict_get].
    - by destruct (decide _).
    - cbn in Hd. apply NoDup_cons in Hd as [Hn Hd]. rewrite IH by done. cbn [fst]. destruct (decide (a = p)) as [->|Ha].
      + destruct (decide (q' = q)) as [->|Hq].
        * rewrite (proj2 (dict_get_notin q l2) Hn). by rewrite lookup_insert.
        * destruct (dict_get q l2); [done|]. rewrite lookup_insert_ne; [done|congruence].
      + rewrite lookup_insert_ne; [done|congruence].
  Qed.
  Lemma ins2_lookup {B1 B2} (V : Name * B1 -> Name * B2 -> C_fld) (l1 : list (Name * B1)) (l2 : list (Name * B2)) p q : NoDup l1.*1 -> NoDup l2.*1 ->
    forall s : gmap (Name * Name) C_fld,
    foldl (fun s x => foldl (fun s y => <[(x.1, y.1) := V x y]> s) s l2) s l1 !! (p, q) =
    match dict_get p l1, dict_get q l2 with Some u, Some v => Some (V (p, u) (q, v)) | _, _ => s !! (p, q) end.
  Proof.
    intros H1' H2'. induction l1 as [|[p' u] l1 IH]; intros s; cbn [foldl dict_get]; [done|].
    cbn in H1'. apply NoDup_cons in H1' as [Hn H1']. rewrite IH by done. rewrite (ins1_lookup (V (p', u)) p' l2 p q H2'). destruct (decide (p' = p)) as [->|Hp].
    - rewrite (proj2 (dict_get_notin p l1) Hn). by destruct (dict_get q l2).
    - done.
  Qed.
  Lemma dict_get_some {A B} `{EqDecision A} (l : list (A * B)) k v : NoDup l.*1 -> (k, v) ∈ l -> dict_get k l = Some v.
  Proof.
    induction l as [|[k' v'] l IH]; intros Hd Hin; [set_solver|]. cbn in Hd. apply NoDup_cons in Hd as [Hn Hd]. cbn [dict_get].
    apply elem_of_cons in Hin as [[= <- <-]|Hin]; [by rewrite decide_True|]. rewrite decide_False; [by apply IH|]. intros ->. apply Hn. apply elem_of_list_fmap. by exists (k, v).
  Qed.
  Lemma kvecs_keys pm key coupling p : p ∉ pm.*1 -> dict_get p (kvecs coupling pm key) = None.
  Proof.
    intros Hp. induction coupling as [|[[f t] x] coupling IH] using rev_ind; [done|]. by rewrite kvecs_snoc, kstep_other.
  Qed.
  Lemma at_pair_nil1 nm kN F : at_pair nm [] kN F = 0%F.
  Proof. done. Qed.
  Lemma at_pair_nil2 nm kP F : at_pair nm kP [] F = 0%F.
  Proof. unfold at_pair. by apply fsum_0. Qed.
  Lemma CSD_fst adjust expect nm coupling pm kP kN p q : NoDup coupling.*1 -> NoDup pm.*1 -> p ∈ pm.*1 -> q ∈ pm.*1 ->
    (CSD_builds adjust expect nm coupling pm kP kN).1 !! (p, q) =
    Some (at_pair nm (default [] (dict_get p (kvecs coupling pm kP))) (default [] (dict_get q (kvecs coupling pm kN))) (term adjust expect p q)).
  Proof.
    intros Hc Hm Hp Hq. rewrite CSD_unfold.
    rewrite (foldl_fst _ (fun s x => foldl (fun s y => <[(x.1, y.1) := at_pair nm x.2 y.2 (term adjust expect x.1 y.1)]> s) s (kvecs coupling pm kN))).
    2:{ intros st x. rewrite (foldl_fst _ (fun s y => <[(x.1, y.1) := at_pair nm x.2 y.2 (term adjust expect x.1 y.1)]> s)); [done|].
        intros st' y. cbn [fst]. f_equal. rewrite (proj1 (inner_loop_spec adjust expect nm x.1 y.1 x.2 y.2 (0%F, st'.2))). cbn [fst]. ring. }
    cbn [fst]. rewrite (ins2_lookup (fun x y => at_pair nm x.2 y.2 (term adjust expect x.1 y.1))); [|by apply kvecs_spec|by apply kvecs_spec].
    rewrite (ins2_lookup (fun _ _ => (0%F : C_fld)) pm pm p q Hm Hm).
    apply elem_of_list_fmap in Hp as ([p' port] & -> & Hp). apply elem_of_list_fmap in Hq as ([q' port'] & -> & Hq). cbn [fst].
    rewrite (dict_get_some _ _ _ Hm Hp), (dict_get_some _ _ _ Hm Hq).
    destruct (dict_get p' (kvecs coupling pm kP)); [|done]. destruct (dict_get q' (kvecs coupling pm kN)); [done|]. cbn [from_option Datatypes.id]. by rewrite at_pair_nil2.
  Qed.
  Lemma CSD_fst_none adjust expect nm coupling pm kP kN p q : NoDup coupling.*1 -> NoDup pm.*1 -> (p ∉ pm.*1 \/ q ∉ pm.*1) ->
    (CSD_builds adjust expect nm coupling pm kP kN).1 !! (p, q) = None.
  Proof.
    intros Hc Hm Hpq. rewrite CSD_unfold.
    rewrite (foldl_fst _ (fun s x => foldl (fun s y => <[(x.1, y.1) := at_pair nm x.2 y.2 (term adjust expect x.1 y.1)]> s) s (kvecs coupling pm kN))).
    2:{ intros st x. rewrite (foldl_fst _ (fun s y => <[(x.1, y.1) := at_pair nm x.2 y.2 (term adjust expect x.1 y.1)]> s)); [done|].
        intros st' y. cbn [fst]. f_equal. rewrite (proj1 (inner_loop_spec adjust expect nm x.1 y.1 x.2 y.2 (0%F, st'.2))). cbn [fst]. ring. }
    cbn [fst]. rewrite (ins2_lookup (fun x y => at_pair nm x.2 y.2 (term adjust expect x.1 y.1))); [|by apply kvecs_spec|by apply kvecs_spec].
    rewrite (ins2_lookup (fun _ _ => (0%F : C_fld)) pm pm p q Hm Hm). rewrite lookup_empty. destruct Hpq as [Hp|Hq].
    - by rewrite (kvecs_keys _ _ _ _ Hp), (proj2 (dict_get_notin p pm) Hp).
    - rewrite (kvecs_keys _ _ _ _ Hq), (proj2 (dict_get_notin q pm) Hq). by destruct (dict_get p (kvecs coupling pm kP)), (dict_get p pm).
  Qed.
  Lemma foldl_adds2 {A S} (g : S * collect -> A -> S * collect) (b : A -> Obj -> Name * Name -> C_fld) l :
    (forall st x o p, by_source (g st x).2 o p = (by_source st.2 o p + b x o p)%F) ->
    forall st o p, by_source (foldl g st l).2 o p = (by_source st.2 o p + fsum (fun x => b x o p) l)%F.
  Proof.
    intros Hg. induction l as [|x l IH]; intros st o p; cbn [foldl fsum]; [ring|]. rewrite IH, Hg. ring.
  Qed.
  Lemma by_source_empty o p : by_source (∅ : collect) o p = 0%F.
  Proof. unfold by_source. by rewrite lookup_empty. Qed.
  Lemma CSD_snd adjust expect nm coupling pm kP kN o p q : NoDup coupling.*1 -> NoDup pm.*1 ->
    by_source (CSD_builds adjust expect nm coupling pm kP kN).2 o (p, q) =
    at_pair nm (default [] (dict_get p (kvecs coupling pm kP))) (default [] (dict_get q (kvecs coupling pm kN))) (term_of adjust expect p q o).
  Proof.
    intros Hc Hm. rewrite CSD_unfold.
    rewrite (foldl_adds2 _ (fun x o p => fsum (fun y => if decide ((x.1, y.1) = p) then at_pair nm x.2 y.2 (term_of adjust expect x.1 y.1 o) else 0%F) (kvecs coupling pm kN))).
    2:{ intros st x o' p'. rewrite (foldl_adds2 _ (fun y o p => if decide ((x.1, y.1) = p) then at_pair nm x.2 y.2 (term_of adjust expect x.1 y.1 o) else 0%F)); [done|].
        intros st' y o2 p2. cbn [snd]. by rewrite (proj2 (inner_loop_spec adjust expect nm x.1 y.1 x.2 y.2 (0%F, st'.2))). }
    cbn [snd]. rewrite by_source_empty.
    destruct (kvecs_spec pm kP coupling Hc Hm) as [NP _]. destruct (kvecs_spec pm kN coupling Hc Hm) as [NN _].
    transitivity (fsum (fun x => if decide (x.1 = p) then at_pair nm x.2 (default [] (dict_get q (kvecs coupling pm kN))) (term_of adjust expect p q o) else 0%F) (kvecs coupling pm kP) : C_fld).
    - transitivity (fsum (fun x => fsum (fun y => if decide ((x.1, y.1) = (p, q)) then at_pair nm x.2 y.2 (term_of adjust expect x.1 y.1 o) else 0%F) (kvecs coupling pm kN)) (kvecs coupling pm kP) : C_fld); [ring|].
      apply fsum_ext. intros [a ka] _. cbn [fst snd]. destruct (decide (a = p)) as [->|Ha].
      + transitivity (fsum (fun y => if decide (y.1 = q) then at_pair nm ka y.2 (term_of adjust expect p q o) else 0%F) (kvecs coupling pm kN) : C_fld).
        * apply fsum_ext. intros [b kb] _. cbn [fst snd]. destruct (decide (b = q)) as [->|Hb]; [by rewrite decide_True|]. by rewrite decide_False by congruence.
        * etransitivity; [apply (fsum_dict (K := C_fld) (fun _ k => at_pair nm ka k (term_of adjust expect p q o)) q _ NN)|]. destruct (dict_get q _); [done|]. by rewrite at_pair_nil2.
      + apply fsum_0. intros [b kb] _. cbn [fst snd]. by rewrite decide_False by congruence.
    - etransitivity; [apply (fsum_dict (K := C_fld) (fun _ k => at_pair nm k (default [] (dict_get q (kvecs coupling pm kN))) (term_of adjust expect p q o)) p _ NP)|].
      by destruct (dict_get p _).
  Qed.
  (** *** in terms of the gains *)
  Lemma reported_0 (P N : Name) : reported P N (0%F : C_fld) = 0%F.
  Proof. unfold reported. by destruct (decide _). Qed.
  Lemma reported_plus (P N : Name) (x y : C_fld) : reported P N (x + y)%F = (reported P N x + reported P N y)%F.
  Proof. unfold reported. destruct (decide _); [|done]. destruct x as [xr xi], y as [yr yi]. apply (f_equal2 pair); simpl; [done|lra]. Qed.
  Lemma reported_fsum {A} (P N : Name) (f : A -> C_fld) l : fsum (fun x => reported P N (f x)) l = reported P N (fsum f l).
  Proof. induction l as [|x l IH]; cbn [fsum]; [by rewrite reported_0|]. by rewrite reported_plus, IH. Qed.
  Lemma term_0l adjust expect P N v (x : C_fld) : term adjust expect P N v (0%F : C_fld) x = (0%F : C_fld).
  Proof. unfold term. transitivity (reported P N (0%F : C_fld)); [f_equal; ring|apply reported_0]. Qed.
  Lemma term_0r adjust expect P N v (x : C_fld) : term adjust expect P N v x (0%F : C_fld) = (0%F : C_fld).
  Proof. unfold term. transitivity (reported P N (0%F : C_fld)); [f_equal; ring|apply reported_0]. Qed.
  Section value.
    Context (cp : Port -> option (gset Key)) (adjust : R) (expect : Obj -> pk -> pk -> C_fld) (l : list (pk * pk * Obj)) (nm : nmap) (coupling : list ((pk * pk) * C_fld)) (pm : list (Name * Port)) (kP kN : Key).
    Context (Hnm : noise_map cp l = Ok nm) (Hc : NoDup coupling.*1) (Hm : NoDup pm.*1).
    Lemma kvec_gain key p port f : (p, port) ∈ pm -> default (0%F : C_fld) (dict_get f (default [] (dict_get p (kvecs coupling pm key)))) = gain coupling f (port, key).
    Proof. intros Hp. destruct (kvecs_spec pm key coupling Hc Hm) as [_ E]. destruct (E p port Hp) as [_ E2]. by rewrite E2, gain_get. Qed.
    Lemma CSD_value p q port port' : (p, port) ∈ pm -> (q, port') ∈ pm ->
      (CSD_builds adjust expect nm coupling pm kP kN).1 !! (p, q) =
      Some (reported p q (density adjust expect coupling l (port, kP) (port', kN))).
    Proof.
      intros Hp Hq. rewrite CSD_fst; [|done..|apply elem_of_list_fmap; by exists (p, port)|apply elem_of_list_fmap; by exists (q, port')]. f_equal.
      rewrite (at_pair_map cp l nm _ _ _ Hnm); [|by eapply kvecs_spec|by eapply kvecs_spec|intros; apply term_0l|intros; apply term_0r].
      unfold density. rewrite <- reported_fsum. apply fsum_ext. intros [[p1 p2] o] _. unfold term. cbn [fst snd]. by rewrite (kvec_gain kP p port _ Hp), (kvec_gain kN q port' _ Hq).
    Qed.
    Lemma CSD_source_value o p q port port' : (p, port) ∈ pm -> (q, port') ∈ pm ->
      by_source (CSD_builds adjust expect nm coupling pm kP kN).2 o (p, q) =
      reported p q (density adjust expect coupling (from_source o l) (port, kP) (port', kN)).
    Proof.
      intros Hp Hq. rewrite CSD_snd by done.
      rewrite (at_pair_map cp l nm _ _ _ Hnm); [|by eapply kvecs_spec|by eapply kvecs_spec|intros v x _; unfold term_of; rewrite term_0l; by destruct (decide _)|intros v x _; unfold term_of; rewrite term_0r; by destruct (decide _)].
      unfold density, from_source. rewrite fsum_filter, <- reported_fsum. apply fsum_ext. intros [[p1 p2] o'] _. unfold term_of, term. cbn [fst snd].
      rewrite (kvec_gain kP p port _ Hp), (kvec_gain kN q port' _ Hq). destruct (decide (o' = o)) as [->|Hne]; [by rewrite bool_decide_true|]. rewrite bool_decide_false by done. by rewrite reported_0.
    Qed.
    Lemma fsum_delta {A} `{EqDecision A} (o : A) (x : C_fld) (os : list A) : NoDup os -> o ∈ os -> fsum (fun o' => if decide (o = o') then x else 0%F) os = x.
    Proof.
      intros Hd Hin. induction os as [|o' os IH]; [set_solver|]. apply NoDup_cons in Hd as [Hn Hd]. cbn [fsum]. destruct (decide (o = o')) as [->|Hne].
      - rewrite fsum_0; [ring|]. intros o2 Ho2. rewrite decide_False; [done|]. set_solver.
      - rewrite IH by set_solver. ring.
    Qed.
    Lemma fsum_swap {A B} (f : A -> B -> C_fld) la lb : fsum (fun x => fsum (f x) lb) la = fsum (fun y => fsum (fun x => f x y) la) lb.
    Proof.
      induction la as [|x la IH]; cbn [fsum]; [symmetry; by apply fsum_0|]. by rewrite IH, fsum_plus.
    Qed.
    Lemma CSD_total os p q port port' : NoDup os -> (forall x, x ∈ l -> x.2 ∈ os) -> (p, port) ∈ pm -> (q, port') ∈ pm ->
      (CSD_builds adjust expect nm coupling pm kP kN).1 !! (p, q) =
      Some (fsum (fun o => by_source (CSD_builds adjust expect nm coupling pm kP kN).2 o (p, q)) os).
    Proof.
      intros Hd Hos Hp Hq. rewrite (CSD_value p q port port' Hp Hq). f_equal. symmetry.
      etransitivity; [apply fsum_ext; intros o _; apply (CSD_source_value o p q port port' Hp Hq)|]. rewrite reported_fsum. f_equal.
      unfold density, from_source. etransitivity; [apply fsum_ext; intros o _; apply fsum_filter|]. rewrite fsum_swap. apply fsum_ext. intros [[p1 p2] o] Hx. cbn [snd].
      etransitivity; [|apply (fsum_delta o _ os Hd (Hos _ Hx))]. apply fsum_ext. intros o' _. destruct (decide (o = o')); [by rewrite bool_decide_true|by rewrite bool_decide_false].
    Qed.
  End value.
End noise.
