(** Proofs of the theorems of WaistProps.v. *)
From stdpp Require Import base tactics list numbers sorting.
From Coq Require Import Reals Lra Psatz.
From Verif Require Import Fld Py Herm OptRot SigModel SigProofs AlmModel AlmSpec AlmProofs AlmProofs2 AlmProofs3 AlmProofs4 AlmFinal MeaModel MeaSpec MeaProofs MeaFinal MeaProofs2.
Local Open Scope R_scope.

Lemma omap_len {A B} (f : A -> option B) (l : list A) : (length (omap f l) <= length l)%nat.
Proof. induction l as [|a l IH]; csimpl; [lia|]. destruct (f a); csimpl; lia. Qed.
Definition pathof (S : layout) (s : nat) : list nat := match target_idx S s with Ok x => path x | Err _ => [] end.
Lemma C97_waists_lem S eps : usable S -> 0 <= eps -> (exists p, beam_target S p) ->
  exists ws (asked : list (list nat * list nat)), waist_descriptions S eps = Ok ws /\
    NoDup (map snd asked) /\ (forall e, e ∈ map snd asked <-> exists L n, space_at S e L n) /\
    (forall p e, (p, e) ∈ asked -> (exists s, target_idx S s = Ok (Tidx p TQ)) /\ next_to S p e) /\
    (length ws <= length asked)%nat /\
    (forall z r, (z, r) ∈ ws -> exists p e a b, (p, e) ∈ asked /\ stretch S e a b /\ waist_at S p e z r /\ a - eps < z < b + eps) /\
    (forall p e a b z r, (p, e) ∈ asked -> stretch S e a b -> waist_at S p e z r -> a < z < b -> (z, r) ∈ ws).
Proof.
  intros HS Heps [p0 Hp0]. pose proof HS as (_ & Ho & Hl & Hi & Hph). set (t := tree_of S) in *. set (ts := tlist S).
  set (ps := wpairs (zdat S) (spaces t) true ts).
  assert (forall z s, (z, s) ∈ ts -> exists p, target_idx S s = Ok (Tidx p TQ) /\ beam_target S p /\ pathof S s = p) as Hts.
  { intros z s H. apply tlist_in in H as [Hs _]. destruct (target_idx_known S s Hs) as [x Ex]. destruct (target_idx_ok S s x Ex) as (p & -> & Hb & _).
    exists p. split; [done|]. split; [done|]. unfold pathof. by rewrite Ex. }
  assert (ts <> []) as Hne. { intros E. assert ((posof S (name_of S p0), name_of S p0) ∈ ts) as H by (apply tlist_in; split; [by exists p0|done]). rewrite E in H. by apply elem_of_nil in H. }
  assert (StronglySorted zle ts) as Hsort by apply sort_sorted.
  assert (map snd ps ≡ₚ spaces t) as Hperm.
  { apply wpairs_all. intros [e [L n]] He. apply spaces_leaf in He. destruct (stretch_ok S e L n HS He) as (a & b & Hab).
    assert (a <= b) as Hle. { destruct ts as [|t0 ts'] eqn:Ets; [done|]. apply (near_ok S e L n a b t0 HS He Hab). fold ts. rewrite Ets. left. }
    apply (cnt_true _ a b); [done| |done|done]. apply Forall_forall. intros t0 Ht0. by apply near_ok. }
  set (asked := map (fun se : nat * entry => (pathof S se.1, fst se.2)) ps).
  assert (map snd asked = map fst (map snd ps)) as Emap by (unfold asked; by rewrite !map_map).
  assert (forall p e, (p, e) ∈ asked -> exists s L n, (s, (e, (L, n))) ∈ ps /\ target_idx S s = Ok (Tidx p TQ) /\ leaf_at t e = Ok (Sp L n)) as Hask.
  { intros p e H. apply elem_of_list_In, in_map_iff in H as ([s [e' [L n]]] & E & H). cbn [fst snd] in E. injection E as <- <-. apply elem_of_list_In in H.
    exists s, L, n. split; [done|]. apply wpairs_in in H as (He & z1 & Hz & _). destruct (Hts _ _ Hz) as (p & Ep & _ & ->). split; [done|]. by apply spaces_leaf. }
  assert (forall s e L n, (s, (e, (L, n))) ∈ ps -> (pathof S s, e) ∈ asked) as Hask'.
  { intros s e L n H. apply elem_of_list_In, in_map_iff. exists (s, (e, (L, n))). split; [done|]. by apply elem_of_list_In. }
  exists (omap (waist_of eps) (map (fun se : nat * entry => dget S se.1 se.2) ps)), asked. split.
  { unfold waist_descriptions. rewrite beam_targets_ok by done. cbn [mbind res_bind]. rewrite waist_data_ok; [done|done|]. intros [z s] H. destruct (Hts _ _ H) as (p & Ep & _). by exists p. }
  split. { rewrite Emap. change (NoDup (fst <$> map snd ps)). rewrite Hperm. apply spaces_nodup. }
  split.
  { intros e. rewrite Emap. change (e ∈ fst <$> map snd ps <-> exists L n, space_at S e L n). rewrite Hperm, elem_of_list_fmap. split.
    - intros ([e' [L n]] & -> & H). exists L, n. by apply spaces_leaf.
    - intros (L & n & H). exists (e, (L, n)). split; [done|]. by apply spaces_leaf. }
  split.
  { intros p e H. destruct (Hask p e H) as (s & L & n & Hps & Es & He). destruct (target_idx_ok S s _ Es) as (p' & E & Hb & _). injection E as <-. split; [by exists s|].
    destruct (stretch_ok S e L n HS He) as (a & b & Hab). apply wpairs_in in Hps as (_ & z1 & Hz & Hk).
    assert (a <= b) as Hle by (by apply (near_ok S e L n a b _ HS He Hab Hz)).
    destruct (Hk a b Hle) as [K _]; [|done|]. { apply Forall_forall. intros t0 Ht0. by apply near_ok. }
    apply tlist_in in Hz as [_ ->]. destruct (pos_ok t p TQ Hl) as (x & Ex & _); [by apply leaf_valid|].
    assert (posof S s = x) as Epos by (unfold posof; rewrite Es; fold t; by rewrite Ex). rewrite Epos in K. exists x, a, b. split; [done|]. split; [done|].
    intros s' y z Ey Ez. destruct (target_idx_ok S s' y Ey) as (p'' & -> & Hb'' & Hn''). apply (K (z, s')). apply tlist_in. split; [by exists p''|]. unfold posof. by rewrite Ey, Ez. }
  split.
  { unfold asked. rewrite map_length. etransitivity; [apply omap_len|]. by rewrite map_length. }
  split.
  - intros z r H. apply elem_of_list_omap in H as (d & Hd & Hw). apply elem_of_list_In, in_map_iff in Hd as ([s [e [L n]]] & <- & Hps). apply elem_of_list_In in Hps.
    cbn [fst snd] in Hw. pose proof (Hask' s e L n Hps) as HA. destruct (Hask _ _ HA) as (s' & L' & n' & Hps' & Es' & He').
    apply wpairs_in in Hps as (He & z1 & Hz & _). apply spaces_leaf in He. destruct (Hts _ _ Hz) as (p & Ep & Hb & Epath). rewrite Epath in *.
    destruct (stretch_ok S e L n HS He) as (a & b & Hab). exists p, e, a, b. split; [done|]. split; [done|].
    destruct (waist_lem S eps s p e L n a b HS Ep He Hab) as (zw & ZR & H1 & H2). rewrite H2 in Hw. cbv zeta in Hw.
    destruct Hab as [Ea Eb]. destruct (pos_ok t p TQ Hl) as (x & Ex & _); [by apply leaf_valid|].
    destruct (place_order p _ e L n x a b Hl Hb He Ex Ea Eb) as (Hab & HL & _).
    clear H2. revert Hw. destruct (lexle p e); (destruct (Rlt_dec _ _); [|done]); (destruct (Rlt_dec _ _); [|done]); intros Hw; injection Hw as <- <-; (split; [by apply H1|]); lra.
  - intros p e a b z r HA Hab Hw Hin. destruct (Hask _ _ HA) as (s & L & n & Hps & Es & He).
    destruct (waist_lem S eps s p e L n a b HS Es He Hab) as (zw & ZR & H1 & H2). apply H1 in Hw as [-> ->].
    destruct (target_idx_ok S s _ Es) as (p' & E & Hb & _). injection E as <-. destruct Hab as [Ea Eb]. destruct (pos_ok t p TQ Hl) as (x & Ex & _); [by apply leaf_valid|].
    destruct (place_order p _ e L n x a b Hl Hb He Ex Ea Eb) as (Hab & HL & _).
    apply elem_of_list_omap. exists (dget S s (e, (L, n))). split.
    + apply elem_of_list_In, in_map_iff. exists (s, (e, (L, n))). split; [done|]. by apply elem_of_list_In.
    + rewrite H2. cbv zeta. destruct (Rlt_dec _ _) as [|N]; [|exfalso; apply N; destruct (lexle p e); lra].
      destruct (Rlt_dec _ _) as [|N]; [done|exfalso; apply N; destruct (lexle p e); lra].
Qed.
Lemma C97_one_lem S s p e L n : usable S -> target_idx S s = Ok (Tidx p TQ) -> space_at S e L n ->
  exists zw ZR, 0 < ZR /\ forall z r, waist_at S p e z r <-> z = zw /\ r = ZR.
Proof.
  intros HS Hs He. destruct (stretch_ok S e L n HS He) as (a & b & Hab). destruct (waist_lem S 1 s p e L n a b HS Hs He Hab) as (zw & ZR & H & _).
  exists zw, ZR. split; [|done]. destruct (proj2 (H zw ZR) (conj eq_refl eq_refl)) as (L' & n' & a' & b' & He' & _ & Eq & Ev).
  destruct (target_idx_ok S s _ Hs) as (p' & E & Hb & _). injection E as <-. pose proof HS as (_ & _ & _ & _ & Hph).
  destruct (target_q_ok S p (AtIdx (Tidx e TL)) HS Hb) as (m & M & _ & _ & _ & D & T); [by eapply space_valid|]. rewrite Eq in T. injection T as ->.
  destruct (propagate_physical _ _ (Hph p) D) as [Hz _]. rewrite propagate_value, mob_space in Ev. apply (f_equal snd) in Ev. cbn [snd] in Ev. rewrite <- Ev. exact Hz.
Qed.
Lemma waist_source S s1 s2 p1 p2 e z r : usable S -> matching S -> target_idx S s1 = Ok (Tidx p1 TQ) -> target_idx S s2 = Ok (Tidx p2 TQ) ->
  waist_at S p1 e z r -> waist_at S p2 e z r.
Proof.
  intros HS HM E1 E2 (L & n & a & b & He & Ea & Eq & Ev). destruct (target_idx_ok S s1 _ E1) as (p' & E & Hb1 & Hn1). injection E as <-.
  destruct (target_idx_ok S s2 _ E2) as (p' & E & Hb2 & Hn2). injection E as <-.
  destruct (target_q_ok S p1 (AtName s2) HS Hb1) as (m & M & _ & _ & _ & _ & T); [by exists p2|]. destruct (HM s1 s2 p1 p2 _ E1 E2 T) as [V1 V2].
  destruct (C96_source_lem S s1 s2 p1 p2 _ (AtIdx (Tidx e TL)) HS E1 E2 T V1 V2) as [(b1 & b2 & Q1 & Q2 & Q3 & _) _]; [by eapply space_valid|].
  rewrite Eq in Q1. injection Q1 as <-. exists L, n, a, b2. split; [done|]. split; [done|]. split; [done|]. rewrite <- Ev, !propagate_value. by rewrite Q3.
Qed.
Lemma C97_matching_lem S eps s p : usable S -> 0 <= eps -> matching S -> target_idx S s = Ok (Tidx p TQ) ->
  exists ws, waist_descriptions S eps = Ok ws /\
    (forall z r, (z, r) ∈ ws -> exists e a b, stretch S e a b /\ waist_at S p e z r /\ a - eps < z < b + eps) /\
    (forall e a b z r, stretch S e a b -> waist_at S p e z r -> a < z < b -> (z, r) ∈ ws).
Proof.
  intros HS He HM Hs. destruct (target_idx_ok S s _ Hs) as (p' & E & Hb & _). injection E as <-.
  destruct (C97_waists_lem S eps HS He (ex_intro _ p Hb)) as (ws & asked & Ew & _ & Hsp & Hsrc & _ & H1 & H2). exists ws. split; [done|]. split.
  - intros z r Hz. destruct (H1 z r Hz) as (p1 & e & a & b & Ha & Hst & Hw & Hin). exists e, a, b. split; [done|]. split; [|done].
    destruct (Hsrc _ _ Ha) as [[s1 E1] _]. by eapply (waist_source S s1 s).
  - intros e a b z r Hst Hw Hin. assert (e ∈ map snd asked) as Ha. { apply Hsp. destruct Hw as (L & n & _ & _ & Hsp' & _). by exists L, n. }
    apply elem_of_list_In, in_map_iff in Ha as ([p1 e1] & E & Ha). cbn [snd] in E. subst e1. apply elem_of_list_In in Ha. destruct (Hsrc _ _ Ha) as [[s1 E1] _].
    eapply H2; [done|done| |done]. by eapply (waist_source S s s1).
Qed.
(** inside a space *)
Lemma space_plane e : forall t L n a d, lengths_ok t -> leaf_at t e = Ok (Sp L n) -> target_pos t (Tidx e TL) = Ok a -> 0 <= d <= L ->
  a + d <= width t /\ plane (flat t) (a + d) (mmul (M2 1 (d / n) 0 1) (upto t e TL)).
Proof.
  induction e as [|i e IH]; intros t L n a d Hl He Ea Hd.
  - simpl in He. injection He as ->. unfold target_pos in Ea. simpl in Ea. injection Ea as <-. simpl. split; [lra|]. rewrite mmul_I_r, Rplus_0_l. by constructor.
  - destruct t as [| | |l]; try done. cbn [leaf_at] in He. rewrite pos_step in Ea. unfold lookup_err in *. destruct (l !! i) as [c|] eqn:Ei; [|done]. cbn [mbind res_bind] in *.
    apply res_inv in Ea as (a' & Ea' & E). injection E as <-. assert (lens l) as Hl' by (by apply lens_foldr).
    destruct (IH c L n a' d) as [H1 H2]; [by eapply lens_lookup|done|done|done|]. assert (i < length l)%nat as Hi by (by eapply lookup_lt_Some).
    rewrite positions_nth by lia. pose proof (take_S_W l i c Ei) as W1. pose proof (W_take_mono l (S i) (length l) Hl' ltac:(lia)) as W3. rewrite firstn_all in W3.
    change (width (Node l)) with (W l). split; [lra|]. cbn [upto]. rewrite Ei. eapply plane_eq; [by eapply reaches_child; [..|exact H2|exact H1]|ring|by rewrite mmul_assoc].
Qed.
Lemma in_space S p e L n a b z : usable S -> beam_target S p -> space_at S e L n -> stretch S e a b -> a <= z <= b -> plain S (AtZ z) ->
  exists q bl, target_q S (Tidx p TQ) (AtZ z) = Ok q /\ target_q S (Tidx p TQ) (AtIdx (Tidx e TL)) = Ok bl /\
    value q = (fst (value bl) + (z - a) / n, snd (value bl)).
Proof.
  intros HS Hb He [Ea Eb] Hz Hp. pose proof HS as ((l & El) & Ho & Hl & Hi & Hph). destruct (space_valid _ _ _ _ He) as [V1 V2].
  destruct (target_q_ok S p (AtIdx (Tidx e TL)) HS Hb V1) as (m & M & _ & K1 & G1 & D & Eq). simpl in K1.
  destruct (target_q_ok S p (AtZ z) HS Hb Hp) as (m' & M' & _ & K2 & G2 & D' & Eq'). eexists _, _. split; [done|]. split; [done|].
  destruct (pos_ok (tree_of S) p TQ Hl) as (x & Ex & _); [by apply leaf_valid|]. destruct (place_order p _ e L n x a b Hl Hb He Ex Ea Eb) as (-> & HL & _).
  destruct (pos_ok _ _ _ Hl V1) as (a' & Ea' & Ha). rewrite Ea in Ea'. injection Ea' as <-.
  assert (M' = walk (flat (tree_of S)) z) as EM'.
  { destruct K2 as (m0 & E0 & ->). rewrite El in *. destruct (C69_from_left_lem l z Ho Hl) as (m1 & E1 & Ev). rewrite E0 in E1. injection E1 as <-. rewrite Ev. destruct (Rlt_dec z 0); [lra|done]. }
  destruct (space_plane e _ L n a (z - a) Hl He Ea ltac:(lra)) as [_ HP]. replace (a + (z - a)) with z in HP by ring.
  apply plane_walk in HP; [|by apply lens_flat|apply flat_leaf|done]. assert (val m' = mmul (M2 1 ((z - a) / n) 0 1) (val m)) as Em.
  { apply (cancel_r _ _ (upto (tree_of S) p TQ)); [by apply upto_det|]. rewrite G2, EM', <- HP, <- mmul_assoc, G1, K1. done. }
  rewrite Em. destruct (beam_compose (beam_of S p) (val m) (M2 1 ((z - a) / n) 0 1) (Hph p) D) as (V & _); [unfold det; simpl; lra|]. rewrite <- V.
  rewrite propagate_value. apply mob_space.
Qed.
Lemma C97_seen_lem S p e L n a b z r : usable S -> beam_target S p -> space_at S e L n -> stretch S e a b -> a <= z <= b -> plain S (AtZ z) ->
  (waist_at S p e z r <-> exists q, target_q S (Tidx p TQ) (AtZ z) = Ok q /\ value q = (0, r)).
Proof.
  intros HS Hb He Hab Hz Hp. destruct (in_space S p e L n a b z HS Hb He Hab Hz Hp) as (q & bl & Eq & El & Ev). destruct Hab as [Ea _]. split.
  - intros (L' & n' & a' & b' & He' & Ea' & Eq' & H). unfold space_at in *. rewrite He in He'. injection He' as <- <-. rewrite Ea in Ea'. injection Ea' as <-.
    rewrite El in Eq'. injection Eq' as <-. exists q. split; [done|]. rewrite propagate_value, mob_space in H. by rewrite Ev.
  - intros (q' & Eq' & H). rewrite Eq in Eq'. injection Eq' as <-. exists L, n, a, bl. split; [done|]. split; [done|]. split; [done|]. rewrite propagate_value, mob_space. by rewrite <- Ev.
Qed.
Lemma C97_nearest_lem S p e L n a b z z' : usable S -> beam_target S p -> space_at S e L n -> n <> 0 -> stretch S e a b ->
  a <= z <= b -> plain S (AtZ z) -> z_nearest S (Tidx p TQ) z 0 = Ok z' -> a <= z' <= b -> plain S (AtZ z') ->
  exists q q', target_q S (Tidx p TQ) (AtZ z) = Ok q /\ target_q S (Tidx p TQ) (AtZ z') = Ok q' /\ b_ZR q' = b_ZR q /\ (b_Z q' = 0 <-> n = 1 \/ b_Z q = 0).
Proof.
  intros HS Hb He Hn Hab Hz Hp Ez Hz' Hp'. destruct (in_space S p e L n a b z HS Hb He Hab Hz Hp) as (q & bl & Eq & El & Ev).
  destruct (in_space S p e L n a b z' HS Hb He Hab Hz' Hp') as (q' & bl' & Eq' & El' & Ev'). rewrite El in El'. injection El' as <-. exists q, q'. split; [done|]. split; [done|].
  unfold b_Z, b_ZR. rewrite Ev, Ev'. cbn [fst snd]. split; [done|]. unfold z_nearest in Ez. rewrite Eq in Ez. cbn [mbind res_bind] in Ez. injection Ez as <-. unfold b_Z, b_ZR. rewrite Ev. cbn [fst snd].
  set (w := fst (value bl)). set (k := w + (z - a) / n). replace (w + (z - k + 0 * snd (value bl) - a) / n) with (k * (1 - / n)) by (unfold k; field; done). split.
  - intros H. apply Rmult_integral in H as [H|H]; [by right|left]. assert (/ n = 1) as H' by lra. rewrite <- (Rinv_inv n), H'. apply Rinv_1.
  - intros [->| ->]; [rewrite Rinv_1; ring|ring].
Qed.
Definition ex_glass : layout := Layout (Node [Tgt; Sp 10 2; Thin (ThinLens 3) false; Sp 5 1]) (fun _ => 7%nat) (fun _ => Beam (-4, 1) 1 1%F).
Lemma glass_usable : usable ex_glass.
Proof.
  split; [by eexists|]. split; [cbn; repeat split; (done || lra)|]. split; [cbn; repeat split; lra|]. split; [cbn; repeat split; lra|].
  intros p. split; unfold b_ZR; simpl; lra.
Qed.
Lemma glass_at z : 0 < z < 10 -> exists q, target_q ex_glass (Tidx [0%nat] TQ) (AtZ z) = Ok q /\ value q = (-4 + z / 2, 1) /\ plain ex_glass (AtZ z).
Proof.
  intros Hz. assert (plain ex_glass (AtZ z)) as Hp by (cbn; lra). assert (stretch ex_glass [1%nat] 0 10) as Hst.
  { split; unfold target_pos; cbn; f_equal; ring. }
  destruct (in_space ex_glass [0%nat] [1%nat] 10 2 0 10 z glass_usable eq_refl eq_refl Hst ltac:(lra) Hp) as (q & bl & Eq & El & Ev).
  exists q. split; [done|]. split; [|done]. rewrite Ev. assert (value bl = (-4, 1)) as ->; [|cbn [fst snd]; f_equal; field].
  destruct (target_q_ok ex_glass [0%nat] (AtIdx (Tidx [1%nat] TL)) glass_usable eq_refl) as (m & M & _ & K & G & _ & T); [done|]. rewrite El in T. injection T as ->.
  cbn in K. subst M. assert (val m = I2) as ->; [|apply mob_I]. apply (cancel_r _ _ (upto (tree_of ex_glass) [0%nat] TQ)); [apply upto_det, glass_usable|]. rewrite G. cbn. by rewrite !mmul_I_l.
Qed.
Lemma C97_nearest_refuted_lem : exists S p e L n a b z z' q', usable S /\ beam_target S p /\ space_at S e L n /\ stretch S e a b /\
  a < z < b /\ a < z' < b /\ plain S (AtZ z) /\ plain S (AtZ z') /\ z_nearest S (Tidx p TQ) z 0 = Ok z' /\ target_q S (Tidx p TQ) (AtZ z') = Ok q' /\ b_Z q' <> 0.
Proof.
  destruct (glass_at 2 ltac:(lra)) as (q & Eq & Ev & Hp). destruct (glass_at 5 ltac:(lra)) as (q' & Eq' & Ev' & Hp').
  exists ex_glass, [0%nat], [1%nat], 10, 2, 0, 10, 2, 5, q'. split; [apply glass_usable|]. split; [done|]. split; [done|]. split; [split; unfold target_pos; cbn; f_equal; ring|].
  split; [lra|]. split; [lra|]. split; [done|]. split; [done|]. split.
  - unfold z_nearest. rewrite Eq. cbn [mbind res_bind]. f_equal. unfold b_Z. rewrite Ev. cbn [fst]. lra.
  - split; [done|]. unfold b_Z. rewrite Ev'. cbn [fst]. lra.
Qed.
Lemma C97_example_lem : exists S s p e L n a b z r, usable S /\ matching S /\ target_idx S s = Ok (Tidx p TQ) /\ beam_target S p /\ space_at S e L n /\ n <> 1 /\
  stretch S e a b /\ a < z < b /\ plain S (AtZ z) /\ waist_at S p e z r.
Proof.
  destruct (glass_at 8 ltac:(lra)) as (q & Eq & Ev & Hp).
  exists ex_glass, 7%nat, [0%nat], [1%nat], 10, 2, 0, 10, 8, 1. split; [apply glass_usable|]. split.
  { intros s1 s2 p1 p2 b E1 E2 Eb. destruct (target_idx_ok _ _ _ E1) as (p & E & B1 & <-). injection E as <-. destruct (target_idx_ok _ _ _ E2) as (p & E & B2 & <-). injection E as <-.
    cbn [name_of ex_glass] in *. rewrite E1 in E2. injection E2 as <-. destruct (C96_here_lem ex_glass p1 glass_usable B1) as (b' & Eb' & V1 & V2 & _).
    unfold target_q in Eb, Eb'. cbn [matrix_to] in Eb, Eb'. rewrite E1 in Eb. cbn [mbind res_bind] in Eb. rewrite Eb in Eb'. injection Eb' as <-. done. }
  split; [done|]. split; [done|]. split; [done|]. split; [lra|]. assert (stretch ex_glass [1%nat] 0 10) as Hst by (split; unfold target_pos; cbn; f_equal; ring).
  split; [done|]. split; [lra|]. split; [done|]. apply (C97_seen_lem ex_glass [0%nat] [1%nat] 10 2 0 10); [apply glass_usable|done|done|done|lra|done|].
  exists q. split; [done|]. rewrite Ev. f_equal. lra.
Qed.
