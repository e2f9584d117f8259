(** Proofs about the passive optical elements. *)
From stdpp Require Import base tactics list numbers.
From Coq Require Import QArith Qreals Reals Lra.
From Verif Require Import Fld Herm ElecModel ElecSpec ElecProofs OptModel OptSpec.

Section mirror.
  Context {K : fld} (h : herm K).
  Local Open Scope fld_scope.
  Add Field FO : (f_theory K).
  Notation conj := (h_conj h).

  Lemma emits_app {P} `{EqDecision P} (a b : list (edge P)) (w : nd P -> K) t :
    emits (a ++ b) [] w t = emits a [] w t + emits b [] w t.
  Proof. unfold emits. rewrite fsum_app. cbn [fsum]. ring. Qed.
  Lemma emits_nil {P} `{EqDecision P} (w : nd P -> K) t : emits [] [] w t = 0.
  Proof. unfold emits. cbn [fsum]. ring. Qed.
  Lemma emits_one {P} `{EqDecision P} (f t' : nd P) (c : K) (w : nd P -> K) t :
    emits [(f, t', c)] [] w t = if decide (t' = t) then c * w f else 0.
  Proof. unfold emits. cbn [fsum fst snd]. destruct (decide _); ring. Qed.
  Lemma emits_if {P} `{EqDecision P} (x : K) (l : list (edge P)) (w : nd P -> K) t :
    (x = 0 -> emits l [] w t = 0) -> emits (if decide (x = 0) then [] else l) [] w t = emits l [] w t.
  Proof. intros Hx. destruct (decide (x = 0)) as [H|H]; [|done]. by rewrite Hx, emits_nil. Qed.

  Context (m : mirror_args (K := K)).
  Lemma sqrt_0 : h_sqrt h 0 = 0.
  Proof.
    pose proof (h_sqrt_sq K h 0 (nn_0 h)) as H. destruct (fmul_integral _ _ H) as [H'|H']; done.
  Qed.
  Lemma mt_0 : m_T m = 0 -> m_t h m = 0.
  Proof. intros H. unfold m_t. rewrite H. apply sqrt_0. Qed.
  Lemma mr_0 : m_R m = 0 -> m_r h m = 0.
  Proof. intros H. unfold m_r. rewrite H, sqrt_0. destruct (flip_sign m); ring. Qed.
  Lemma mb_0 : R_backscatter m = 0 -> m_b h m = 0.
  Proof. intros H. unfold m_b. rewrite H, sqrt_0. destruct (flip_sign m); ring. Qed.
  Lemma ml_0 : m_has_loss m = false -> m_l h m = 0.
  Proof.
    unfold m_has_loss, m_l, m_L. intros [H1 H2]%orb_false_iff. apply negb_false_iff, bool_decide_eq_true in H1, H2.
    rewrite H1, H2. assert (0 + 0 = 0 :> K) as -> by ring. apply sqrt_0.
  Qed.

  (** everything a port emits, as one formula *)
  Definition other (p : p4) : p4 := match p with FrA => FrB | FrB => FrA | BkA => BkB | BkB => BkA end.
  Definition thru (p : p4) : p4 := match p with FrA => BkA | FrB => BkB | BkA => FrA | BkB => FrB end.
  Definition rsg (p : p4) : K := match p with FrA | FrB => 1 | BkA | BkB => - (1) end.
  Definition bsg (p : p4) : K := match p with FrA | BkB => 1 | BkA | FrB => - (1) end.
  Ltac one := rewrite ?emits_app, ?emits_one, ?emits_nil;
    repeat match goal with
    | |- context [@decide (?a = ?a) _] => rewrite (decide_True (P := a = a)) by reflexivity
    | |- context [@decide (?a = ?b) _] => rewrite (decide_False (P := a = b)) by discriminate
    end.
  Lemma mirror4_out lower w p : four m = true ->
    emits (mirror h m lower) [] w (O (Pt p)) =
    m_t h m * w (I (Pt (thru p))) + rsg p * m_r h m * m_ph h m lower * w (I (Pt (other p))) +
    bsg p * m_b h m * m_phb h m lower * w (I (Pt p)) + m_l h m * w (I (Ls p)).
  Proof.
    intros H4. unfold mirror. assert (m_ports m = [FrA; BkA; FrB; BkB]) as ->.
    { unfold m_ports, al. rewrite H4. vm_compute. done. }
    assert (forall q, al m q = q) as Hal by (intros q; unfold al; by rewrite H4).
    assert (m_tmap h m FrA = Some (BkA, m_t h m) /\ m_tmap h m BkA = Some (FrA, m_t h m) /\
      m_tmap h m FrB = Some (BkB, m_t h m) /\ m_tmap h m BkB = Some (FrB, m_t h m)) as (T1 & T2 & T3 & T4).
    { unfold m_tmap, dlit, al. rewrite H4. done. }
    assert (m_rmap h m FrA = Some (FrB, m_r h m) /\ m_rmap h m BkA = Some (BkB, - m_r h m) /\
      m_rmap h m FrB = Some (FrA, m_r h m) /\ m_rmap h m BkB = Some (BkA, - m_r h m)) as (R1 & R2 & R3 & R4).
    { unfold m_rmap, dlit, al. rewrite H4. done. }
    assert (m_bmap h m FrA = Some (FrA, m_b h m) /\ m_bmap h m FrB = Some (FrB, - m_b h m) /\
      m_bmap h m BkA = Some (BkA, - m_b h m) /\ m_bmap h m BkB = Some (BkB, m_b h m)) as (B1 & B2 & B3 & B4).
    { unfold m_bmap, dlit, al. rewrite H4. done. }
    rewrite emits_app.
    match goal with |- _ + ?x = _ => assert (x = m_l h m * w (I (Ls p))) as -> end.
    { destruct (m_has_loss m) eqn:Hl; [|rewrite emits_nil, (ml_0 Hl); ring]. cbn [mbind list_bind app]. destruct p; emits_simpl; ring. }
    cbn [mbind list_bind app]. unfold m_edge. rewrite T1, T2, T3, T4, R1, R2, R3, R4, B1, B2, B3, B4, !Hal.
    pose proof mt_0 as Ht. pose proof mr_0 as Hr. pose proof mb_0 as Hb.
    rewrite !emits_app.
    rewrite !emits_if; try (intros Hx; rewrite emits_one; destruct (decide _); [|done]; rewrite ?(Ht Hx), ?(Hr Hx), ?(Hb Hx); ring).
    destruct p; one; cbn [rsg bsg thru other]; ring.
  Qed.
  Lemma mirror2_out lower w p : four m = false -> p = FrA \/ p = BkA ->
    emits (mirror h m lower) [] w (O (Pt p)) =
    m_t h m * w (I (Pt (thru p))) + rsg p * (m_r h m * m_ph h m lower - m_b h m * m_phb h m lower) * w (I (Pt p)) +
    m_l h m * w (I (Ls p)).
  Proof.
    intros H4 Hp. unfold mirror. assert (m_ports m = [FrA; BkA]) as ->.
    { unfold m_ports, al. rewrite H4. vm_compute. done. }
    assert (m_tmap h m FrA = Some (BkB, m_t h m) /\ m_tmap h m BkA = Some (FrB, m_t h m)) as (T1 & T2).
    { unfold m_tmap, dlit, al. rewrite H4. done. }
    assert (m_rmap h m FrA = Some (FrA, m_r h m) /\ m_rmap h m BkA = Some (BkA, - m_r h m)) as (R1 & R2).
    { unfold m_rmap, dlit, al. rewrite H4. done. }
    assert (m_bmap h m FrA = Some (FrB, - m_b h m) /\ m_bmap h m BkA = Some (BkB, m_b h m)) as (B1 & B2).
    { unfold m_bmap, dlit, al. rewrite H4. done. }
    assert (al m FrA = FrA /\ al m FrB = FrA /\ al m BkA = BkA /\ al m BkB = BkA) as (A1 & A2 & A3 & A4).
    { unfold al. by rewrite H4. }
    rewrite emits_app.
    match goal with |- _ + ?x = _ => assert (x = m_l h m * w (I (Ls p))) as -> end.
    { destruct (m_has_loss m) eqn:Hl; [|rewrite emits_nil, (ml_0 Hl); ring]. cbn [mbind list_bind app].
      destruct Hp as [-> | ->]; emits_simpl; ring. }
    cbn [mbind list_bind app]. unfold m_edge. rewrite T1, T2, R1, R2, B1, B2, A1, A2, A3, A4.
    pose proof mt_0 as Ht. pose proof mr_0 as Hr. pose proof mb_0 as Hb.
    rewrite !emits_app.
    rewrite !emits_if; try (intros Hx; rewrite emits_one; destruct (decide _); [|done]; rewrite ?(Ht Hx), ?(Hr Hx), ?(Hb Hx); ring).
    destruct Hp as [-> | ->]; one; cbn [rsg bsg thru other]; ring.
  Qed.

  (** the squares *)
  Context (Hok : mirror_ok h m).
  Lemma mt_sq : m_t h m * m_t h m = m_T m.
  Proof. apply (h_sqrt_sq K h). apply Hok. Qed.
  Lemma mr_sq : m_r h m * m_r h m = m_R m.
  Proof.
    unfold m_r. assert (h_sqrt h (m_R m) * h_sqrt h (m_R m) = m_R m) as H by (apply (h_sqrt_sq K h); apply Hok).
    etransitivity; [|exact H]. destruct (flip_sign m); ring.
  Qed.
  Lemma mb_sq : m_b h m * m_b h m = R_backscatter m.
  Proof.
    unfold m_b. assert (h_sqrt h (R_backscatter m) * h_sqrt h (R_backscatter m) = R_backscatter m) as H by (apply (h_sqrt_sq K h); apply Hok).
    etransitivity; [|exact H]. destruct (flip_sign m); ring.
  Qed.
  Lemma ml_sq : m_l h m * m_l h m = m_L m.
  Proof. apply (h_sqrt_sq K h). apply (h_nn_add K h); apply Hok. Qed.
  Lemma mt_conj : conj (m_t h m) = m_t h m.
  Proof. apply (h_nn_conj K h), (h_sqrt_nn K h). apply Hok. Qed.
  Lemma mr_conj : conj (m_r h m) = m_r h m.
  Proof.
    assert (conj (h_sqrt h (m_R m)) = h_sqrt h (m_R m)) as H by (apply (h_nn_conj K h), (h_sqrt_nn K h); apply Hok).
    unfold m_r. destruct (flip_sign m); [|done]. by rewrite conj_opp, H.
  Qed.
  Lemma mb_conj : conj (m_b h m) = m_b h m.
  Proof.
    assert (conj (h_sqrt h (R_backscatter m)) = h_sqrt h (R_backscatter m)) as H by (apply (h_nn_conj K h), (h_sqrt_nn K h); apply Hok).
    unfold m_b. destruct (flip_sign m); [|done]. by rewrite conj_opp, H.
  Qed.
  Lemma ml_conj : conj (m_l h m) = m_l h m.
  Proof. apply (h_nn_conj K h), (h_sqrt_nn K h). apply (h_nn_add K h); apply Hok. Qed.
  Lemma rsg_conj p : conj (rsg p) = rsg p.
  Proof. destruct p; cbn [rsg]; rewrite ?conj_opp, conj_1; done. Qed.
  Lemma bsg_conj p : conj (bsg p) = bsg p.
  Proof. destruct p; cbn [bsg]; rewrite ?conj_opp, conj_1; done. Qed.
  Lemma m_sum : m_T m + m_R m + R_backscatter m + m_L m = 1.
  Proof. unfold m_T, m_R, m_L. ring. Qed.
  Lemma ph_1 lower : phase m = None -> m_ph h m lower = 1 /\ m_phb h m lower = 1.
  Proof. unfold m_phb, m_ph. intros ->. destruct (backscatter_phase m); done. Qed.

  Definition fours (w : nd mport -> K) lower : Prop := obeys (Pt <$> [FrA; BkA; FrB; BkB]) (mirror h m lower) [] w.
  Definition twos (w : nd mport -> K) lower : Prop := obeys (Pt <$> [FrA; BkA]) (mirror h m lower) [] w.

  Ltac conjs1 := rewrite ?(h_conj_add K h), ?conj_sub, ?(h_conj_mul K h), ?conj_opp, ?mt_conj, ?mr_conj, ?mb_conj, ?ml_conj, ?conj_0, ?conj_1.
  Ltac conjs := repeat progress conjs1.
  Lemma mirror4_power lower w : four m = true -> phase m = None -> fours w lower ->
    (forall p, w (I (Ls p)) = 0) ->
    p_out h (Pt <$> [FrA; BkA; FrB; BkB]) w = (1 - m_L m) * p_in h (Pt <$> [FrA; BkA; FrB; BkB]) w.
  Proof.
    intros H4 Hph Ho Hd. destruct (ph_1 lower Hph) as [Hp1 Hp2].
    assert (forall p, w (O (Pt p)) = m_t h m * w (I (Pt (thru p))) + rsg p * m_r h m * w (I (Pt (other p))) + bsg p * m_b h m * w (I (Pt p))) as Hw.
    { intros p. rewrite (Ho (Pt p)), mirror4_out, Hp1, Hp2, Hd by (done || destruct p; set_solver). ring. }
    unfold p_out, p_in, power. cbn [fmap list_fmap fsum]. rewrite !Hw. cbn [rsg bsg thru other]. conjs.
    set (t := m_t h m). set (r := m_r h m). set (b := m_b h m).
    assert (1 - m_L m = t * t + r * r + b * b) as ->.
    { unfold t, r, b. rewrite mt_sq, mr_sq, mb_sq, <- m_sum. ring. }
    ring.
  Qed.
  Lemma mirror2_power lower w : four m = false -> R_backscatter m = 0 -> phase m = None -> twos w lower ->
    (forall p, w (I (Ls p)) = 0) ->
    p_out h (Pt <$> [FrA; BkA]) w = (1 - m_L m) * p_in h (Pt <$> [FrA; BkA]) w.
  Proof.
    intros H4 Hb Hph Ho Hd. destruct (ph_1 lower Hph) as [Hp1 Hp2].
    assert (forall p, p = FrA \/ p = BkA -> w (O (Pt p)) = m_t h m * w (I (Pt (thru p))) + rsg p * m_r h m * w (I (Pt p))) as Hw.
    { intros p Hp. rewrite (Ho (Pt p)), mirror2_out, Hp1, Hp2, Hd by (done || destruct Hp as [-> | ->]; set_solver).
      rewrite (mb_0 Hb). ring. }
    unfold p_out, p_in, power. cbn [fmap list_fmap fsum]. rewrite !Hw by auto. cbn [rsg thru]. conjs.
    set (t := m_t h m). set (r := m_r h m).
    assert (1 - m_L m = t * t + r * r) as ->.
    { unfold t, r. rewrite mt_sq, mr_sq, <- m_sum, Hb. ring. }
    ring.
  Qed.
  (** with a phase: light from one side only *)
  Lemma mirror4_side lower w (side : bool) : four m = true -> R_backscatter m = 0 -> phase_ok h m -> fours w lower ->
    (forall p, w (I (Ls p)) = 0) ->
    (if side then w (I (Pt BkA)) = 0 /\ w (I (Pt BkB)) = 0 else w (I (Pt FrA)) = 0 /\ w (I (Pt FrB)) = 0) ->
    p_out h (Pt <$> [FrA; BkA; FrB; BkB]) w = (1 - m_L m) * p_in h (Pt <$> [FrA; BkA; FrB; BkB]) w.
  Proof.
    intros H4 Hb Hph Ho Hd Hs.
    assert (m_ph h m lower * conj (m_ph h m lower) = 1) as He.
    { unfold phase_ok, m_ph, power in *. destruct (phase m) as [e|]; [|rewrite conj_1; ring].
      destruct lower; [done|]. rewrite (h_conj_conj K h). rewrite <- Hph. ring. }
    assert (forall p, w (O (Pt p)) = m_t h m * w (I (Pt (thru p))) + rsg p * m_r h m * m_ph h m lower * w (I (Pt (other p)))) as Hw.
    { intros p. rewrite (Ho (Pt p)), mirror4_out, Hd, (mb_0 Hb) by (done || destruct p; set_solver). ring. }
    unfold p_out, p_in, power. cbn [fmap list_fmap fsum]. rewrite !Hw. cbn [rsg thru other].
    set (e := m_ph h m lower) in *. set (t := m_t h m). set (r := m_r h m).
    assert (1 - m_L m = t * t + r * r * (e * conj e)) as ->.
    { rewrite He. unfold t, r. transitivity (m_T m + m_R m); [|rewrite mt_sq, mr_sq; ring]. rewrite <- m_sum, Hb. ring. }
    subst t r. destruct side; destruct Hs as [-> ->]; conjs; ring.
  Qed.
  Lemma mirror2_side lower w (side : bool) : four m = false -> R_backscatter m = 0 -> phase_ok h m -> twos w lower ->
    (forall p, w (I (Ls p)) = 0) -> (if side then w (I (Pt BkA)) = 0 else w (I (Pt FrA)) = 0) ->
    p_out h (Pt <$> [FrA; BkA]) w = (1 - m_L m) * p_in h (Pt <$> [FrA; BkA]) w.
  Proof.
    intros H4 Hb Hph Ho Hd Hs.
    assert (m_ph h m lower * conj (m_ph h m lower) = 1) as He.
    { unfold phase_ok, m_ph, power in *. destruct (phase m) as [e|]; [|rewrite conj_1; ring].
      destruct lower; [done|]. rewrite (h_conj_conj K h). rewrite <- Hph. ring. }
    assert (forall p, p = FrA \/ p = BkA -> w (O (Pt p)) = m_t h m * w (I (Pt (thru p))) + rsg p * m_r h m * m_ph h m lower * w (I (Pt p))) as Hw.
    { intros p Hp. rewrite (Ho (Pt p)), mirror2_out, Hd, (mb_0 Hb) by (done || destruct Hp as [-> | ->]; set_solver). ring. }
    unfold p_out, p_in, power. cbn [fmap list_fmap fsum]. rewrite !Hw by auto. cbn [rsg thru].
    set (e := m_ph h m lower) in *. set (t := m_t h m). set (r := m_r h m).
    assert (1 - m_L m = t * t + r * r * (e * conj e)) as ->.
    { rewrite He. unfold t, r. transitivity (m_T m + m_R m); [|rewrite mt_sq, mr_sq; ring]. rewrite <- m_sum, Hb. ring. }
    subst t r. destruct side; rewrite Hs; conjs; ring.
  Qed.

  (** couplings: rows *)
  Lemma gain_emits {P} `{EqDecision P} (es : list (edge (K := K) P)) (f t : P) :
    gain es f t = emits es [] (fun n => if decide (n = I f) then 1 else 0) (O t).
  Proof.
    unfold gain, emits. cbn [fsum].
    match goal with |- _ = ?x + 0 => transitivity x; [|ring] end.
    apply fsum_ext. intros [[a b] c] _. cbn [fst snd].
    destruct (decide (b = O t)) as [-> |], (decide (a = I f)) as [-> |].
    - rewrite decide_True by done. ring.
    - rewrite decide_False by congruence. ring.
    - rewrite decide_False by congruence. done.
    - rewrite decide_False by congruence. done.
  Qed.
  Lemma mirror4_rows lower p q : four m = true -> phase m = None ->
    fsum (fun f => gain (mirror h m lower) f (Pt p) * conj (gain (mirror h m lower) f (Pt q)))
      ((Pt <$> [FrA; BkA; FrB; BkB]) ++ (Ls <$> [FrA; BkA; FrB; BkB])) = if decide (p = q) then 1 else 0.
  Proof.
    intros H4 Hph. destruct (ph_1 lower Hph) as [Hp1 Hp2]. cbn [fmap list_fmap app fsum].
    rewrite !gain_emits, !mirror4_out, Hp1, Hp2 by done.
    set (t := m_t h m). set (r := m_r h m). set (b := m_b h m). set (l := m_l h m).
    assert (1 = t * t + r * r + b * b + l * l) as E1.
    { unfold t, r, b, l. by rewrite mt_sq, mr_sq, mb_sq, ml_sq, m_sum. }
    destruct p, q; cbn [rsg bsg thru other];
      repeat match goal with
      | |- context [@decide (?a = ?a) _] => rewrite (decide_True (P := a = a)) by reflexivity
      | |- context [@decide (?a = ?b) _] => rewrite (decide_False (P := a = b)) by discriminate
      end; subst t r b l; conjs; first [ring | etransitivity; [|symmetry; exact E1]; ring].
  Qed.
  Lemma mirror2_rows lower p q : four m = false -> R_backscatter m = 0 -> phase m = None ->
    p = FrA \/ p = BkA -> q = FrA \/ q = BkA ->
    fsum (fun f => gain (mirror h m lower) f (Pt p) * conj (gain (mirror h m lower) f (Pt q)))
      ((Pt <$> [FrA; BkA]) ++ (Ls <$> [FrA; BkA])) = if decide (p = q) then 1 else 0.
  Proof.
    intros H4 Hb Hph Hp Hq. destruct (ph_1 lower Hph) as [Hp1 Hp2]. cbn [fmap list_fmap app fsum].
    rewrite !gain_emits, !mirror2_out, Hp1, Hp2, (mb_0 Hb) by done.
    set (t := m_t h m). set (r := m_r h m). set (l := m_l h m).
    assert (1 = t * t + r * r + l * l) as E1.
    { unfold t, r, l. rewrite mt_sq, mr_sq, ml_sq, <- m_sum, Hb. ring. }
    destruct Hp as [-> | ->], Hq as [-> | ->]; cbn [rsg bsg thru other];
      repeat match goal with
      | |- context [@decide (?a = ?a) _] => rewrite (decide_True (P := a = a)) by reflexivity
      | |- context [@decide (?a = ?b) _] => rewrite (decide_False (P := a = b)) by discriminate
      end; subst t r l; conjs; first [ring | etransitivity; [|symmetry; exact E1]; ring].
  Qed.
  (** raising fields are the conjugates *)
  Lemma mph_conj : m_ph h m false = conj (m_ph h m true) /\ m_phb h m false = conj (m_phb h m true).
  Proof. unfold m_phb, m_ph. destruct (phase m), (backscatter_phase m); rewrite ?conj_1; done. Qed.
  Lemma mirror_conj (w w' : nd mport -> K) : conj_of h w' w ->
    obeys (Pt <$> m_ports m) (mirror h m true) [] w -> obeys (Pt <$> m_ports m) (mirror h m false) [] w'.
  Proof.
    intros Hc Ho p Hp. pose proof (Ho p Hp) as Hw. rewrite (Hc (O p)), Hw.
    apply elem_of_list_fmap in Hp as [q [-> Hq]]. destruct mph_conj as [E1 E2].
    destruct (four m) eqn:H4.
    - rewrite !mirror4_out, E1, E2, !Hc by done. conjs. by rewrite rsg_conj, bsg_conj.
    - assert (q = FrA \/ q = BkA) as Hq'.
      { unfold m_ports, al in Hq. rewrite H4 in Hq. apply elem_of_remove_dups in Hq. set_solver. }
      rewrite !mirror2_out, E1, E2, !Hc by done. conjs. by rewrite rsg_conj.
  Qed.
End mirror.

