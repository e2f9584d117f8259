(** The theorems about sources, assembled; the cases of SrcProps.v. *)
From Coq Require Import Reals Lra String.
From stdpp Require Import base tactics numbers gmap.
From Verif Require Import Fld Py Herm ElecModel ElecProofs InjModel InjSpec OptModel OptRot SigModel SigSpec SigProofs PdModel PdSpec PdProofs PdProofs2 PdProofs3 PdFinal NoiModel NoiSpec NoiFinal SrcModel SrcSpec SrcProofs SrcProofs2 SrcProofs3.
From stdpp Require Import list.
Local Open Scope fld_scope.

Add Field FSrc4 : (f_theory C_fld).
Section shot.
  Context {P A Q Obj Name : Type} `{Countable P} `{Countable A} `{Countable Q} `{Countable Obj} `{Countable Name}.
  Context (qadd : Q -> Q -> Q) (qneg : Q -> Q) (q0 : Q) (Hz : Q -> R).
  Context (reject : Q -> bool).
  Notation node := (P * key A Q)%type.
  Lemma shot_lem (x : gmap node C_fld) (fr w ba : P) (ms : list (A * Q)) ks wks baks r F sided
      (adjust h_Js c_m_s : R) (iwavelen : A -> R) (expect : Obj -> node -> node -> C_fld) coupling vs (o : P -> Obj) keys t cp nm (pm : list (Name * P)) p :
    frequencies qadd qneg q0 Hz ->
    shines (field x) fr ms -> (forall m, m ∈ ms -> reject m.2 = false) -> signal_keys qneg wks -> F ∈ wks -> F <> q0 -> both ms ks ->
    pd qadd qneg reject fr w ba ks wks baks = Ok r ->
    (forall v, v ∈ vs -> keys v ≡ₚ keys_of ms /\ expect (o v) = vacuum_expect h_Js c_m_s iwavelen) ->
    reaches coupling r x vs fr w t ms F -> reaches coupling r x vs fr w t ms (qneg F) -> unitary vs t ms ->
    has_sidebands qadd (dark (field x) fr) ms F -> has_sidebands qadd (dark (field x) fr) ms (qneg F) ->
    adjust_PSD sided = Ok adjust -> noise_map cp (vacua vs o keys) = Ok nm -> NoDup coupling.*1 -> NoDup pm.*1 -> (p, w) ∈ pm ->
    (CSD_builds adjust expect nm coupling pm (cls F) (cls (qneg F))).1 !! (p, p) =
    Some (cre (2 / INR sided) * quanta h_Js c_m_s iwavelen ms (lower_at (field x) fr)).
  Proof.
    intros HF Hs Hr Hw HFw HF0 Hb E Hv R1 R2 HU S1 S2 Ha Hnm Hc Hp Hin.
    rewrite (C51_value_lem cp adjust expect _ nm coupling pm (cls F) (cls (qneg F)) p p w w Hnm Hc Hp Hin Hin).
    rewrite (shot_density qadd qneg q0 Hz HF reject x fr w ba ms ks wks baks r F adjust h_Js c_m_s iwavelen expect coupling vs o keys t); try done.
    unfold reported. rewrite decide_True by done. f_equal.
    assert (adjust = (2 / INR sided)%R) as ->.
    { destruct sided as [|[|[|n]]]; cbn in Ha; try discriminate; injection Ha as <-; cbn; lra. }
    rewrite <- (quanta_real h_Js c_m_s iwavelen ms (lower_at (field x) fr)). unfold real_part. rewrite <- cre_mul. done.
  Qed.
  Lemma quanta_one h_Js c_m_s (iwavelen : A -> R) o ms (a : A * Q -> C_fld) : (forall m, m ∈ ms -> m.1 = o) ->
    quanta h_Js c_m_s iwavelen ms a = cre (h_Js * c_m_s * iwavelen o) * fsum (fun m => a m * cconj (a m)) ms.
  Proof. intros Ho. unfold quanta. rewrite <- fsum_mul_l. apply fsum_ext. intros m Hm. by rewrite (Ho m Hm). Qed.
  Lemma shot_mean_lem (x : gmap node C_fld) (fr w ba : P) (ms : list (A * Q)) ks wks baks r F sided
      (adjust h_Js c_m_s : R) (iwavelen : A -> R) (expect : Obj -> node -> node -> C_fld) coupling vs (o : P -> Obj) keys t cp nm (pm : list (Name * P)) p (a : A) :
    frequencies qadd qneg q0 Hz ->
    shines (field x) fr ms -> (forall m, m ∈ ms -> reject m.2 = false) -> signal_keys qneg wks -> F ∈ wks -> F <> q0 -> both ms ks ->
    pd qadd qneg reject fr w ba ks wks baks = Ok r ->
    (forall v, v ∈ vs -> keys v ≡ₚ keys_of ms /\ expect (o v) = vacuum_expect h_Js c_m_s iwavelen) ->
    reaches coupling r x vs fr w t ms F -> reaches coupling r x vs fr w t ms (qneg F) -> unitary vs t ms ->
    has_sidebands qadd (dark (field x) fr) ms F -> has_sidebands qadd (dark (field x) fr) ms (qneg F) ->
    adjust_PSD sided = Ok adjust -> noise_map cp (vacua vs o keys) = Ok nm -> NoDup coupling.*1 -> NoDup pm.*1 -> (p, w) ∈ pm ->
    (forall m, m ∈ ms -> m.1 = a) -> q0 ∈ wks ->
    (CSD_builds adjust expect nm coupling pm (cls F) (cls (qneg F))).1 !! (p, p) =
    Some (cre (2 / INR sided) * cre (h_Js * c_m_s * iwavelen a) * arrives r (field x) (w, cls q0)).
  Proof.
    intros HF Hs Hr Hw HFw HF0 Hb E Hv R1 R2 HU S1 S2 Ha Hnm Hc Hp Hin Ho H0w.
    rewrite (shot_lem x fr w ba ms ks wks baks r F sided adjust h_Js c_m_s iwavelen expect coupling vs o keys t cp nm pm p); try done.
    rewrite (C74_mean_lem qadd qneg q0 Hz reject (field x) fr w ba ms ks wks baks r HF Hs Hb Hr Hw H0w E).
    rewrite (quanta_one _ _ _ a) by done. f_equal. ring.
  Qed.
End shot.
Lemma laser_reading {P A Q} `{Countable P} `{Countable A} `{Countable Q} qadd qneg q0 Hz reject x (fr wpd ba : P) (ms : list (A * Q)) ks wks baks r (power_W : R) phase m0 os t :
  frequencies qadd qneg q0 Hz -> lases x fr power_W phase m0 -> (0 <= power_W)%R -> NoDup ms -> m0 ∈ ms -> carriers os ms ->
  both ms ks -> (forall m, m ∈ ms -> reject m.2 = false) -> signal_keys qneg wks -> q0 ∈ wks ->
  pd qadd qneg reject fr wpd ba ks wks baks = Ok r ->
  wave q0 Hz wks (fun F => arrives r x (wpd, cls F)) t = cre power_W.
Proof.
  intros HF Hl HP Hn Hm Hc Hb Hr Hw H0w E. rewrite <- (lases_intensity Hz x fr power_W phase m0 ms os t) by done.
  eapply C74_power_lem; try done; [by eapply lases_shines|].
  intros m m' Hm1 Hm2 _. unfold dark, lower_at. rewrite !Hl. destruct (decide (m = m0)) as [-> |]; [|by left]. destruct (decide (m' = m0)) as [-> |]; [|by right; left].
  right. right. by rewrite (fq_neg _ _ _ _ HF).
Qed.
Section generator.
  Context {Q : Type} `{Countable Q}.
  Context (qadd : Q -> Q -> Q) (qneg : Q -> Q) (q0 : Q) (Hz : Q -> R) (qmul : Z -> Q -> Q).
  Context (HF : frequencies qadd qneg q0 Hz) (HM : multiples qneg Hz qmul).
  Lemma gen_out_lem (g : generator Q) ks t : NoDup ks -> g_key g ∈ ks -> qneg (g_key g) ∈ ks -> g_amplitudeC g = None -> g_key g <> q0 ->
    wave q0 Hz ks (gen_at qneg qmul g PsOut) t = real_part (g_amplitude g * cis (2 * PI * Hz (g_key g) * t + the_phase (g_phase g))).
  Proof. intros Hn H1 H2 Ec N. rewrite (gen_out qadd qneg q0 Hz qmul HF) by (try done; unfold amplitudeC; by rewrite Ec). rewrite decide_False by done. ring. Qed.
  Lemma gen_dc_lem (g : generator Q) ks t : NoDup ks -> q0 ∈ ks -> g_amplitudeC g = None -> g_key g = q0 ->
    wave q0 Hz ks (gen_at qneg qmul g PsOut) t = (1 + 1) * real_part (g_amplitude g * cis (the_phase (g_phase g))).
  Proof.
    intros Hn H1 Ec N. rewrite (gen_out qadd qneg q0 Hz qmul HF); rewrite ?N, ?(fq_neg0 qadd qneg q0 Hz HF); try done; [|unfold amplitudeC; by rewrite Ec].
    rewrite decide_True by done. assert (Hz q0 = 0%R) as ->; [|by rewrite Rmult_0_r, Rmult_0_l, Rplus_0_l].
    pose proof (fq_Hz _ _ _ _ HF q0 q0) as E. rewrite (fq_zero _ _ _ _ HF) in E. lra.
  Qed.
  Lemma gen_harm_lem (g : generator Q) n z ks t : dict_ok g -> (n, z) ∈ g_harmonics g -> NoDup ks -> qmul n (g_key g) ∈ ks -> qneg (qmul n (g_key g)) ∈ ks ->
    qmul n (g_key g) <> q0 ->
    wave q0 Hz ks (gen_at qneg qmul g (OutH n)) t = real_part (z * cis (IZR n * (2 * PI * Hz (g_key g) * t + the_phase (g_phase g)))).
  Proof. intros Hd Hi Hn H1 H2 N. rewrite (gen_harm qadd qneg q0 Hz qmul HF HM g n z) by done. rewrite decide_False by done. ring. Qed.
  Lemma gen_unreal_lem (g : generator Q) : g_key g <> q0 -> amplitudeC g <> cconj (g_amplitude g) ->
    gen_at qneg qmul g PsOut (qneg (g_key g)) <> cconj (gen_at qneg qmul g PsOut (g_key g)).
  Proof.
    intros N Ne. assert (Nn : qneg (g_key g) <> g_key g) by (intros E; by apply N, (fq_torsion _ _ _ _ HF)).
    rewrite !at_out, (decide_False (P := g_key g = qneg _)), (decide_True (P := g_key g = _)), (decide_True (P := qneg _ = qneg _)), (decide_False (P := qneg _ = _)) by (try done; congruence).
    rewrite cplgC_eq. intros E. apply Ne.
    assert (Hu : gen_cplg g 1 * cconj (gen_cplg g 1) = 1).
    { rewrite cplg_eq, conj_cis, <- cis_add. set (u := (IZR 1 * the_phase (g_phase g))%R). replace (u + - u)%R with 0%R by ring. apply cis_0. }
    assert (E' : cconj (gen_cplg g 1) * amplitudeC g = cconj (gen_cplg g 1) * cconj (g_amplitude g)).
    { transitivity (0 + cconj (gen_cplg g 1) * amplitudeC g); [ring|]. rewrite E, cconj_add, cconj_mul, (conj_0 C_herm : cconj 0 = 0). ring. }
    transitivity ((gen_cplg g 1 * cconj (gen_cplg g 1)) * amplitudeC g); [rewrite Hu; ring|].
    transitivity (gen_cplg g 1 * (cconj (gen_cplg g 1) * amplitudeC g)); [ring|]. rewrite E'.
    transitivity ((gen_cplg g 1 * cconj (gen_cplg g 1)) * cconj (g_amplitude g)); [ring|]. rewrite Hu. ring.
  Qed.
  Lemma gen_real_lem (g : generator Q) p k : dict_ok g -> g_amplitudeC g = None -> gen_at qneg qmul g p (qneg k) = cconj (gen_at qneg qmul g p k).
  Proof. intros Hd Ec. apply (gen_real qadd qneg q0 Hz qmul HF HM); [done|]. unfold amplitudeC. by rewrite Ec. Qed.
  Lemma gen_free_lem f ph (a b : C_fld) ac bc hs n k : gen_at qneg qmul (Gen f ph a ac hs) (OutH n) k = gen_at qneg qmul (Gen f ph b bc hs) (OutH n) k.
  Proof.
    unfold gen_at, source_at, gen_sources. rewrite !fsum_app. f_equal.
  Qed.
  Lemma gen_requested_lem (g : generator Q) p k z : (p, k, z) ∈ gen_sources qneg qmul g -> (p, k) ∈ gen_needed qneg qmul g.
  Proof. intros Hi. rewrite <- gen_requested. by apply (elem_of_list_fmap_1 fst _ (p, k, z)). Qed.
End generator.
Lemma polk_lem s : polk s = if decide (s = "S"%string) then Ok true else if decide (s = "P"%string) then Ok false else Err UnboundLocalError.
Proof. unfold polk. destruct (String.eqb_spec s "S"), (String.eqb_spec s "P"); repeat case_decide; done. Qed.

(** ** the case of the shot noise: light in the carrier at port 0, half of the vacuum of the port 0
    itself and half of port 5 *)
Definition sm : list (unit * Z) := [((), -1); ((), 0); ((), 1)]%Z.
Definition sk : list (bool * unit * Z) := [(true, (), -1); (true, (), 0); (true, (), 1); (false, (), -1); (false, (), 0); (false, (), 1)]%Z.
Definition sx : gmap (nat * key unit Z) C_fld := {[ (0%nat, opt true () 0%Z) := ci; (0%nat, opt false () 0%Z) := - ci ]}.
Definition sv : list nat := [0; 5]%nat.
Definition sr : list (InjModel.inj C_fld nat (key unit Z)) :=
  match pd Z.add Z.opp (fun _ => false) 0%nat 1%nat 2%nat sk [-1; 0; 1]%Z [] with Ok r => r | Err _ => [] end.
Definition st (v : nat) (m : unit * Z) : C_fld := if decide (v = 0%nat) then cre (3 / 5) else ci * cre (4 / 5).
Definition spairs : list ((nat * key unit Z) * (nat * key unit Z)) :=
  v ← sv; k ← keys_of sm; G ← [1; -1]%Z; [((v, k), (1%nat, cls G))].
Definition sgain (e : (nat * key unit Z) * (nat * key unit Z)) : C_fld :=
  let lower := match e.1.2.1 with Some (l, _) => l | None => false end in
  (if lower then st e.1.1 ((), 0%Z) else cconj (st e.1.1 ((), 0%Z))) * response sr sx (unit_at (0%nat, e.1.2)) e.2.
Definition scoupling : list (((nat * key unit Z) * (nat * key unit Z)) * C_fld) := (fun e => (e, sgain e)) <$> spairs.
Lemma sgain_eq e : e ∈ spairs -> NoDup spairs -> gain scoupling e.1 e.2 = sgain e.
Proof.
  intros He Hn. unfold gain, scoupling. rewrite fsum_map. cbn [fst snd].
  rewrite (fsum_ext _ (fun e' => if decide (e' = e) then sgain e' else 0)).
  - by rewrite fsum_delta, decide_True by done.
  - intros e' _. by destruct e.
Qed.
Lemma s_nodup : NoDup spairs.
Proof. apply (bool_decide_unpack _). vm_compute. exact Logic.I. Qed.
Lemma s_reaches G : G ∈ [1; -1]%Z -> reaches scoupling sr sx sv 0%nat 1%nat st sm G.
Proof.
  intros HG v m Hv Hm.
  assert (Hi : forall l, ((v, opt l m.1 m.2), (1%nat, cls G)) ∈ spairs).
  { intros l. unfold spairs. apply elem_of_list_bind. exists v. split; [|done]. apply elem_of_list_bind. exists (opt l m.1 m.2). split.
    - apply elem_of_list_bind. exists G. split; [by apply elem_of_list_singleton|done].
    - unfold keys_of. apply elem_of_app. destruct l; [left|right]; apply elem_of_list_fmap; by exists m. }
  split.
  - exact (sgain_eq ((v, opt true m.1 m.2), (1%nat, cls G)) (Hi true) s_nodup).
  - exact (sgain_eq ((v, opt false m.1 m.2), (1%nat, cls G)) (Hi false) s_nodup).
Qed.
Lemma s_unitary : unitary sv st sm.
Proof.
  intros m _. unfold sv, st. cbn [fsum]. rewrite decide_True, decide_False by done. rewrite cconj_mul, cconj_ci, !cconj_cre.
  transitivity (cre (3 / 5) * cre (3 / 5) + - (ci * ci) * (cre (4 / 5) * cre (4 / 5))); [ring|].
  rewrite ci_sq, <- !cre_mul. transitivity (cre (3 / 5 * (3 / 5)) + cre (4 / 5 * (4 / 5))); [ring|]. rewrite <- cre_add, one_cre. f_equal. lra.
Qed.
Lemma s_shines : shines (field sx) 0%nat sm.
Proof.
  assert (E : forall l m, field sx (0%nat, opt l m.1 m.2) = if decide (m = ((), 0%Z)) then if l then ci else - ci else 0).
  { intros l [[] f]. unfold field, sget, sx. cbn [fst snd]. destruct (decide (((), f) = ((), 0%Z))) as [Ef|N].
    - injection Ef as ->. destruct l; [by rewrite lookup_insert|]. rewrite lookup_insert_ne by done. by rewrite lookup_singleton.
    - rewrite lookup_insert_ne by (unfold opt; congruence). rewrite lookup_singleton_ne by (unfold opt; congruence). done. }
  split.
  - apply (bool_decide_unpack _). vm_compute. exact Logic.I.
  - intros m N. unfold lower_at. rewrite E, decide_False; [done|]. intros ->. apply N. apply (bool_decide_unpack _). vm_compute. exact Logic.I.
  - intros m. unfold lower_at, raise_at. rewrite !E. destruct (decide _); [by rewrite cconj_ci|symmetry; exact (conj_0 C_herm)].
Qed.
Definition scp : nat -> option (gset (key unit Z)) := fun _ => Some (list_to_set (keys_of sm)).
Lemma gen_given {Q} (g : generator Q) z : g_amplitudeC g = Some z -> z <> cconj (g_amplitude g) -> amplitudeC g <> cconj (g_amplitude g).
Proof. intros E N. unfold amplitudeC. by rewrite E. Qed.
Lemma gen_keys_lem {Q} `{Countable Q} (qneg : Q -> Q) (qmul : Z -> Q -> Q) (g : generator Q) p k :
  ((p, k) ∈ gen_needed qneg qmul g <-> exists z, (p, k, z) ∈ gen_sources qneg qmul g) /\ ((p, k) ∉ gen_needed qneg qmul g -> gen_at qneg qmul g p k = 0).
Proof.
  split.
  - rewrite <- gen_requested, elem_of_list_fmap. split.
    + intros ([[p' k'] z] & [= -> ->] & Hi). by exists z.
    + intros [z Hi]. by exists (p, k, z).
  - rewrite <- gen_requested. intros N. unfold gen_at, source_at. apply fsum_0. intros e He. rewrite decide_False; [done|]. intros E. apply N. rewrite <- E. by apply elem_of_list_fmap_1.
Qed.
Lemma gen_case : let g := Gen 3%Z (Some 1%R) ci None [(2%Z, cre 5); (-1, ci)%Z] in
  frequencies Z.add Z.opp 0%Z IZR /\ multiples Z.opp IZR Z.mul /\ dict_ok g /\ g_key g <> 0%Z /\ (2%Z, cre 5) ∈ g_harmonics g /\ (2 * g_key g)%Z <> 0%Z /\
  gen_at Z.opp Z.mul g PsOut 3%Z = cis 1 * ci.
Proof.
  intros g. split_and!; try done.
  - split; intros; try lia; apply plus_IZR.
  - split; intros; [apply mult_IZR|lia].
  - apply (bool_decide_unpack _). vm_compute. exact Logic.I.
  - left.
  - rewrite at_out, decide_True, decide_False by done. rewrite cplg_eq. unfold the_phase. cbn [g_phase g g_amplitude default from_option]. unfold Datatypes.id. rewrite Rmult_1_l. ring.
Qed.
Lemma laser_keys power_W phase : (laser_sources power_W phase).*1 = laser_needed.
Proof. by destruct phase. Qed.
Lemma laser_case : exists x : nat * key unit Z -> C_fld, lases x 0%nat 4 (Some 1%R) ((), 0%Z) /\ lower_at x 0%nat ((), 0%Z) = cre 2 * cis 1.
Proof.
  exists (fun n => match n.2.1 with Some (l, _) => if decide (n.2.2 = 0%Z) then source_at (laser_sources 4 (Some 1%R)) l else 0 | None => 0 end). split.
  - intros l [[] f]. cbn [opt fst snd]. destruct (decide (f = 0%Z)) as [-> |]; [by rewrite decide_True|by rewrite decide_False by congruence].
  - unfold lower_at. cbn [opt fst snd]. rewrite decide_True, laser_at by done. do 2 f_equal. replace 4%R with (2 * 2)%R by ring. apply sqrt_square. lra.
Qed.
Lemma sided_lem n : (exists adjust, adjust_PSD n = Ok adjust) <-> n = 1%nat \/ n = 2%nat.
Proof. destruct n as [|[|[|n]]]; cbn; split; try (intros [a E]; discriminate || auto); try (intros [E|E]; discriminate); eauto. Qed.
Lemma shot_case : shines (field sx) 0%nat sm /\ both sm sk /\ pd Z.add Z.opp (fun _ => false) 0%nat 1%nat 2%nat sk [-1; 0; 1]%Z [] = Ok sr /\
  reaches scoupling sr sx sv 0%nat 1%nat st sm 1%Z /\ reaches scoupling sr sx sv 0%nat 1%nat st sm (-1)%Z /\ unitary sv st sm /\
  has_sidebands Z.add (dark (field sx) 0%nat) sm 1%Z /\ has_sidebands Z.add (dark (field sx) 0%nat) sm (-1)%Z /\
  (exists nm, noise_map scp (vacua sv (fun v => v) (fun _ => keys_of sm)) = Ok nm) /\ NoDup scoupling.*1.
Proof.
  assert (HF : frequencies Z.add Z.opp 0%Z IZR) by (split; intros; try lia; apply plus_IZR).
  assert (HD : forall f : Z, f <> 0%Z -> dark (field sx) 0%nat ((), f)).
  { intros f N. unfold dark, lower_at, field, sget, sx. cbn [fst snd]. rewrite lookup_insert_ne, lookup_singleton_ne by (unfold opt; congruence). done. }
  split_and!.
  - apply s_shines.
  - unfold both. reflexivity.
  - unfold sr. destruct (proj2 (proj1 (C74_total_lem Z.add Z.opp 0%Z IZR (fun _ => false) 0%nat 1%nat 2%nat sk [-1; 0; 1]%Z [] HF ltac:(done)))) as [r E]; [|by rewrite E].
    apply Forall_forall. by apply (bool_decide_unpack _).
  - apply s_reaches. left.
  - apply s_reaches. right. left.
  - apply s_unitary.
  - intros [[] f] Hm. destruct (decide (f = 0%Z)) as [-> |N]; [right; apply (bool_decide_unpack _); vm_compute; exact Logic.I|left; by apply HD].
  - intros [[] f] Hm. destruct (decide (f = 0%Z)) as [-> |N]; [right; apply (bool_decide_unpack _); vm_compute; exact Logic.I|left; by apply HD].
  - apply C51_registered_lem. apply Forall_forall. intros [[pk1 pk2] o] Hi. unfold vacua in Hi. apply elem_of_list_bind in Hi as (v & Hi & _).
    apply elem_of_list_fmap in Hi as (k & [= -> -> ->] & Hk).
    split; (eexists; split; [done|]); apply elem_of_list_to_set; [done|]. cbn [fst snd].
    clear -Hk. unfold keys_of in *. apply elem_of_app in Hk as [Hk|Hk]; apply elem_of_list_fmap in Hk as (m & -> & Hm); apply elem_of_app; [right|left]; apply elem_of_list_fmap; by exists m.
  - assert (scoupling.*1 = spairs) as ->; [|apply s_nodup]. unfold scoupling. clear. induction spairs as [|e l IH]; [done|]. cbn. f_equal. exact IH.
Qed.
