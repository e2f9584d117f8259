(** Lemmas for NoiProps.v: Hermitian and positive spectra, errors, selections. *)
From Coq Require Import Reals Lra.
From stdpp Require Import base tactics numbers gmap list.
From Verif Require Import Fld Py Herm SigModel SigProofs NoiModel NoiSpec NoiProofs NoiProofs2.

Lemma cconj_fsum {A} (f : A -> C_fld) l : cconj (fsum f l) = fsum (fun x => cconj (f x)) l.
Proof. induction l as [|x l IH]; cbn [fsum]; [exact (conj_0 C_herm)|]. by rewrite cconj_add, IH. Qed.
Lemma self_conj_real (x : C_fld) : cconj x = x -> cre (fst x) = x.
Proof. destruct x as [a b]. intros [= E]. apply (f_equal2 pair); simpl; lra. Qed.
Definition nnc (x : C_fld) : Prop := exists r : R, (0 <= r)%R /\ x = cre r.
Lemma nnc_add (x y : C_fld) : nnc x -> nnc y -> nnc (x + y)%F.
Proof. intros (a & Ha & ->) (b & Hb & ->). exists (a + b)%R. split; [lra|]. by rewrite cre_add. Qed.
Lemma nnc_mul (x y : C_fld) : nnc x -> nnc y -> nnc (x * y)%F.
Proof. intros (a & Ha & ->) (b & Hb & ->). exists (a * b)%R. split; [by apply Rmult_le_pos|]. by rewrite cre_mul. Qed.
Lemma nnc_cre r : (0 <= r)%R -> nnc (cre r). Proof. intros Hr. by exists r. Qed.
Lemma nnc_sq (x : C_fld) : nnc (x * cconj x)%F.
Proof. destruct x as [a b]. exists (a * a + b * b)%R. split; [nra|]. apply (f_equal2 pair); simpl; lra. Qed.
Lemma nnc_fsum {A} (f : A -> C_fld) l : (forall x, x ∈ l -> nnc (f x)) -> nnc (fsum f l).
Proof. induction l as [|x l IH]; intros Hf; cbn [fsum]; [exists 0%R; split; [lra|done]|]. apply nnc_add; [apply Hf; set_solver|apply IH; set_solver]. Qed.

Lemma fsum_prod {A B} (f : A -> C_fld) (g : B -> C_fld) la lb : fsum (fun a => fsum (fun b => (f a * g b)%F) lb) la = (fsum f la * fsum g lb)%F.
Proof.
  induction la as [|a la IH]; cbn [fsum]; [|rewrite IH, fsum_scale]; generalize (fsum g lb); [|generalize (fsum f la), (f a)]; intros; apply (f_equal2 pair); simpl; ring.
Qed.
Section noise.
  Context {Port Key Obj Name : Type}.
  Context `{Countable Port, Countable Key, Countable Obj, Countable Name}.
  Notation pk := (Port * Key)%type.
  Notation nmap := (gmap pk (gmap pk (list (pk * pk * Obj)))).
  Add Field FCN4 : (f_theory C_fld).
  Section conj.
    Context (conj : Key -> Key) (Hinv : forall k, conj (conj k) = k).
    Lemma bar_bar (x : pk) : bar conj (bar conj x) = x.
    Proof. destruct x. unfold bar. cbn. by rewrite Hinv. Qed.
    Lemma density_conj adjust (expect : Obj -> pk -> pk -> C_fld) coupling l a b : real_system conj coupling -> symmetric conj expect l ->
      density adjust expect coupling l b (bar conj a) = cconj (density adjust expect coupling l a (bar conj b)).
    Proof.
      intros Hr [Hl He]. unfold density. rewrite cconj_fsum. rewrite <- (fsum_perm _ _ _ Hl), fsum_fmap. apply fsum_ext. intros [[p1 p2] o] Hx.
      rewrite !cconj_mul, cconj_cre, (He p1 p2 o Hx), Hr. rewrite <- (Hr p2 (bar conj b)), bar_bar. ring.
    Qed.
    Lemma reported_density adjust (expect : Obj -> pk -> pk -> C_fld) coupling l (p q : Name) a b : real_system conj coupling -> symmetric conj expect l ->
      (p = q -> a = b) ->
      reported p q (density adjust expect coupling l a (bar conj b)) = density adjust expect coupling l a (bar conj b).
    Proof.
      intros Hr Hs Hab. unfold reported. destruct (decide (p = q)) as [E|]; [|done]. rewrite (Hab E). apply self_conj_real. symmetry. by apply density_conj.
    Qed.
    (** *** the elements' sources *)
    Lemma symmetric_app expect (l1 l2 : list (pk * pk * Obj)) : symmetric conj expect l1 -> symmetric conj expect l2 -> symmetric conj expect (l1 ++ l2).
    Proof. intros [P1 E1] [P2 E2]. split; [rewrite fmap_app; by apply Permutation_app|]. intros p1 p2 o [Hx|Hx]%elem_of_app; auto. Qed.
    Lemma symmetric_nil (expect : Obj -> pk -> pk -> C_fld) : symmetric conj expect [].
    Proof. split; [done|]. intros p1 p2 o Hx. set_solver. Qed.
    Lemma source_symmetric psd conversion expect (s : source Port Key Obj) : source_expects psd conversion expect s -> symmetric conj expect (source_pairs conj s).
    Proof.
      destruct s as [o port keys|o pi po keys|o Z pi po keys]; cbn [source_expects source_pairs]; intros He.
      - induction keys as [|k keys IH]; [apply symmetric_nil|]. apply (symmetric_app expect [_] _); [|exact IH]. split.
        + cbn. unfold bar. cbn. rewrite Hinv. done.
        + intros p1 p2 o' Hx. apply elem_of_list_singleton in Hx as [= -> -> ->]. rewrite He. unfold bar, expect_single. cbn [fst snd]. by rewrite Hinv, cconj_cre.
      - induction keys as [|k keys IH]; [apply symmetric_nil|]. unfold pairs_double. rewrite bind_cons. apply symmetric_app; [|exact IH]. split.
        + cbn. unfold bar. cbn. rewrite Hinv. apply Permutation_skip. apply Permutation_swap.
        + intros p1 p2 o' Hx. rewrite !elem_of_cons in Hx. destruct Hx as [[= -> -> ->]|[[= -> -> ->]|[[= -> -> ->]|[[= -> -> ->]|Hx]]]]; [..|set_solver];
          rewrite He; unfold bar, expect_voltage2; cbn [fst snd]; rewrite Hinv, cconj_cre; [done| | |done]; f_equal;
          destruct (decide _), (decide _); done || congruence.
      - induction keys as [|k keys IH]; [apply symmetric_nil|]. unfold pairs_double. rewrite bind_cons. apply symmetric_app; [|exact IH]. split.
        + cbn. unfold bar. cbn. rewrite Hinv. apply Permutation_skip. apply Permutation_swap.
        + intros p1 p2 o' Hx. rewrite !elem_of_cons in Hx. destruct Hx as [[= -> -> ->]|[[= -> -> ->]|[[= -> -> ->]|[[= -> -> ->]|Hx]]]]; [..|set_solver];
          rewrite He; unfold bar, expect_current2; cbn [fst snd]; by rewrite Hinv, cconj_cre.
    Qed.
    Lemma sources_symmetric psd conversion expect (ss : list (source Port Key Obj)) : Forall (source_expects psd conversion expect) ss ->
      symmetric conj expect (ss ≫= source_pairs conj).
    Proof.
      induction 1 as [|s ss Hs _ IH]; [apply symmetric_nil|]. rewrite bind_cons. apply symmetric_app; [by eapply source_symmetric|done].
    Qed.
    (** *** positivity *)
    Definition amp (coupling : list ((pk * pk) * C_fld)) (pm : list (Name * Port)) (kP : Key) (z : Name -> C_fld) (x : pk) : C_fld :=
      fsum (fun r => (z r.1 * gain coupling x (r.2, kP))%F) pm.
    Lemma form_density adjust (expect : Obj -> pk -> pk -> C_fld) coupling l pm kP z : real_system conj coupling ->
      fsum (fun a => fsum (fun b => (z a.1 * cconj (z b.1) * density adjust expect coupling l (a.2, kP) (b.2, conj kP))%F) pm) pm =
      fsum (fun x => let '(p1, p2, o) := x in (cre adjust * expect o p1 p2 * (amp coupling pm kP z p1 * cconj (amp coupling pm kP z (bar conj p2))))%F) l.
    Proof.
      intros Hr. unfold density.
      transitivity (fsum (fun a => fsum (fun b => fsum (fun x => let '(p1, p2, o) := x in
        (z a.1 * cconj (z b.1) * (cre adjust * expect o p1 p2 * gain coupling p1 (a.2, kP) * gain coupling p2 (b.2, conj kP)))%F) l) pm) pm : C_fld).
      { apply fsum_ext. intros a _. apply fsum_ext. intros b _. rewrite <- fsum_scale. apply fsum_ext. intros [[p1 p2] o] _. done. }
      etransitivity; [apply fsum_ext; intros a _; apply fsum_swap|]. rewrite fsum_swap. apply fsum_ext. intros [[p1 p2] o] _.
      transitivity (fsum (fun a => fsum (fun b => ((cre adjust * expect o p1 p2 * (z a.1 * gain coupling p1 (a.2, kP))) * (cconj (z b.1) * gain coupling p2 (b.2, conj kP)))%F) pm) pm : C_fld).
      { apply fsum_ext. intros a _. apply fsum_ext. intros b _. ring. }
      rewrite fsum_prod, fsum_scale. fold (amp coupling pm kP z p1).
      replace (fsum (fun b => (cconj (z b.1) * gain coupling p2 (b.2, conj kP))%F) pm : C_fld) with (cconj (amp coupling pm kP z (bar conj p2))); [ring|].
      unfold amp. rewrite cconj_fsum. apply fsum_ext. intros b _. rewrite cconj_mul, <- Hr, bar_bar. done.
    Qed.
    Lemma source_nn adjust psd conversion (expect : Obj -> pk -> pk -> C_fld) s (U : pk -> C_fld) : (0 <= adjust)%R -> (0 < conversion)%R -> (forall o k, (0 <= psd o k)%R) ->
      source_expects psd conversion expect s ->
      nnc (fsum (fun x => let '(p1, p2, o) := x in (cre adjust * expect o p1 p2 * (U p1 * cconj (U (bar conj p2))))%F) (source_pairs conj s)).
    Proof.
      intros Ha Hc Hp He.
      assert (Hq : forall o k, (0 <= psd o k / conversion)%R). { intros o k. apply Rmult_le_pos; [apply Hp|]. left. by apply Rinv_0_lt_compat. }
      destruct s as [o port keys|o pi po keys|o Z pi po keys]; cbn [source_expects source_pairs] in *.
      - unfold pairs_single. rewrite fsum_fmap. apply nnc_fsum. intros k _. rewrite He. unfold bar, expect_single. cbn [fst snd]. rewrite Hinv.
        apply nnc_mul; [|apply nnc_sq]. apply nnc_mul; by apply nnc_cre.
      - unfold pairs_double. rewrite fsum_bind. apply nnc_fsum. intros k _. cbn [fsum]. rewrite He. unfold bar, expect_voltage2. cbn [fst snd]. rewrite Hinv.
        destruct (decide (po = po)); [|done]. destruct (decide (pi = pi)); [|done]. specialize (Hq o k). set (t := (psd o k / conversion)%R) in *. set (Ui := U (pi, k)). set (Uo := U (po, k)).
        destruct (decide (pi = po)) as [E|E].
        + rewrite (decide_True _ _ (eq_sym E)). assert (Ui = Uo) as -> by (unfold Ui, Uo; by rewrite E).
          assert (Ht : nnc (cre adjust * cre (t / 4) * (Uo * cconj Uo))%F). { apply nnc_mul; [|apply nnc_sq]. apply nnc_mul; apply nnc_cre; lra. }
          repeat (apply nnc_add; [exact Ht|]). apply nnc_cre; lra.
        + rewrite decide_False by congruence.
          replace (_ + _)%F with (cre adjust * cre (t / 4) * ((Uo - Ui) * cconj (Uo - Ui)))%F.
          { apply nnc_mul; [|apply nnc_sq]. apply nnc_mul; apply nnc_cre; lra. }
          replace (- t / 4)%R with (- (t / 4))%R by lra. rewrite cre_opp, cconj_sub. ring.
      - unfold pairs_double. rewrite fsum_bind. apply nnc_fsum. intros k _. cbn [fsum]. rewrite He. unfold bar, expect_current2. cbn [fst snd]. rewrite Hinv.
        specialize (Hq o k). set (t := (psd o k / conversion)%R) in *. set (Ui := U (pi, k)). set (Uo := U (po, k)).
        replace (_ + _)%F with (cre adjust * cre (Z * Z * t / 4) * ((Uo + Ui) * cconj (Uo + Ui)))%F.
        { apply nnc_mul; [|apply nnc_sq]. apply nnc_mul; apply nnc_cre; [lra|]. assert (0 <= Z * Z * t)%R by (apply Rmult_le_pos; [nra|lra]). lra. }
        rewrite cconj_add. ring.
    Qed.
    Lemma sources_nn adjust psd conversion (expect : Obj -> pk -> pk -> C_fld) ss (U : pk -> C_fld) : (0 <= adjust)%R -> (0 < conversion)%R -> (forall o k, (0 <= psd o k)%R) ->
      Forall (source_expects psd conversion expect) ss ->
      nnc (fsum (fun x => let '(p1, p2, o) := x in (cre adjust * expect o p1 p2 * (U p1 * cconj (U (bar conj p2))))%F) (ss ≫= source_pairs conj)).
    Proof.
      intros Ha Hc Hp He. rewrite fsum_bind. apply nnc_fsum. intros s Hs. apply source_nn with (psd := psd) (conversion := conversion); try done. by eapply Forall_forall in He.
    Qed.
  End conj.
  (** *** errors *)
  Lemma noise_map_ok cp (l : list (pk * pk * Obj)) :
    (exists nm, noise_map cp l = Ok nm) <-> Forall (fun x => (exists s, cp x.1.1.1 = Some s /\ x.1.1.2 ∈ s) /\ (exists s, cp x.1.2.1 = Some s /\ x.1.2.2 ∈ s)) l.
  Proof.
    unfold noise_map. generalize (∅ : nmap) as m. induction l as [|[[p1 p2] o] l IH]; intros m; [split; [intros _; constructor|intros _; by exists m]|].
    rewrite Forall_cons. cbn [mfor fst snd]. unfold noise_pair_insert at 1. destruct (cp p1.1) as [s1|] eqn:E1.
    2:{ split; [intros [nm E]; done|]. intros [[(s & E & _) _] _]. done. }
    destruct (decide (p1.2 ∈ s1)) as [D1|D1].
    2:{ split; [intros [nm E]; by destruct (cp p2.1)|]. intros [[(s & E & D) _] _]. injection E as <-. done. }
    destruct (cp p2.1) as [s2|] eqn:E2.
    2:{ split; [intros [nm E]; done|]. intros [[_ (s & E & _)] _]. done. }
    destruct (decide (p2.2 ∈ s2)) as [D2|D2].
    2:{ split; [intros [nm E]; done|]. intros [[_ (s & E & D)] _]. injection E as <-. done. }
    cbn [mbind res_bind]. split.
    - intros E. split; [split; eauto|]. exact (proj1 (IH _) E).
    - intros [_ Hl]. exact (proj2 (IH _) Hl).
  Qed.
  (** *** selections *)
  Lemma external_inner (l : list ((Name * Name) * C_fld)) p : forall s : gmap (Name * Name) C_fld,
    default (0%F : C_fld) (foldl (fun s y => <[y.1 := match s !! y.1 with None => y.2 | Some z => (z + y.2)%F end]> s) s l !! p) =
    (default (0%F : C_fld) (s !! p) + fsum (fun y => if decide (y.1 = p) then y.2 else 0%F) l)%F.
  Proof.
    induction l as [|[p' x] l IH]; intros s; cbn [foldl fsum]; [ring|]. rewrite IH. cbn [fst snd]. destruct (decide (p' = p)) as [->|Hne].
    - rewrite lookup_insert. destruct (s !! p); cbn [from_option Datatypes.id]; ring.
    - rewrite lookup_insert_ne by done. ring.
  Qed.
  Lemma external_value (l : list (Obj * list ((Name * Name) * C_fld))) p :
    default (0%F : C_fld) (CSD_external l !! p) = fsum (fun x => fsum (fun y => if decide (y.1 = p) then y.2 else 0%F) x.2) l.
  Proof.
    unfold CSD_external. transitivity (default (0%F : C_fld) ((∅ : gmap (Name * Name) C_fld) !! p) + fsum (fun x => fsum (fun y => if decide (y.1 = p) then y.2 else 0%F) x.2) l : C_fld)%F; [|rewrite lookup_empty; cbn [from_option Datatypes.id]; ring].
    generalize (∅ : gmap (Name * Name) C_fld) as s. induction l as [|[o x] l IH]; intros s; cbn [foldl fsum]; [ring|]. rewrite IH, external_inner. cbn [snd]. ring.
  Qed.
  Lemma external_sources (c : gmap Obj (gmap (Name * Name) C_fld)) os p :
    default (0%F : C_fld) (CSD_external ((fun o => (o, map_to_list (default ∅ (c !! o)))) <$> os) !! p) = fsum (fun o => by_source c o p) os.
  Proof.
    rewrite external_value, fsum_fmap. apply fsum_ext. intros o _. cbn [snd]. unfold by_source.
    transitivity (default (0%F : C_fld) (default ∅ (c !! o) !! p)).
    2:{ destruct (c !! o); [done|]. cbn [from_option Datatypes.id mbind option_bind]. by rewrite lookup_empty. }
    generalize (default ∅ (c !! o)) as m. intros m.
    etransitivity; [apply (fsum_dict (K := C_fld) (fun _ x => x) p (map_to_list m)); apply NoDup_fst_map_to_list|].
    destruct (m !! p) as [x|] eqn:E.
    - rewrite (dict_get_some _ p x); [done|apply NoDup_fst_map_to_list|by apply elem_of_map_to_list].
    - rewrite (proj2 (dict_get_notin _ _)); [done|]. intros Hin. apply elem_of_list_fmap in Hin as (y & Hy & Hx). destruct y as [p' x]. apply elem_of_map_to_list in Hx. change (p = p') in Hy. subst p'. rewrite E in Hx. discriminate Hx.
  Qed.
End noise.
