(** Proofs about the solution bookkeeping. *)
From stdpp Require Import base tactics list numbers gmap fin_sets.
From Verif Require Import Py SolModel SolSpec.
Local Open Scope Z_scope.

Section proofs.
  Context {S T C R D : Type} `{Countable R} `{Countable D}.
  Context (init : S) (step : S -> S) (conv : S -> bool) (full : R -> S -> T) (couple : D -> R -> S -> C).
  Context (max_N : Z) (exact_order : option Z).
  Notation st := (st (S := S) (T := T) (C := C) (R := R) (D := D)).
  Notation sol := (solution step init).
  Notation ent := (ent (S := S) (T := T) (R := R)).
  Implicit Types s : st.

  Record inv s : Prop := {
    i_0 : exists e, bun s !! 0%nat = Some e /\ e_pert e = Some init;
    i_p : forall i e v, bun s !! i = Some e -> e_pert e = Some v -> v = sol i;
    i_r : forall i e r t, bun s !! i = Some e -> e_read e !! r = Some t -> (1 <= i)%nat -> t = full r (sol (i - 1));
    i_c : forall k m d r c, coup s !! k = Some m -> m !! (d, r) = Some c -> 1 <= k ->
      c = couple d r (sol (Z.to_nat (k - 1)));
    i_nd : NoDup (log s);
    i_lp : forall i, EvP i ∈ log s -> exists e, bun s !! i = Some e /\ is_Some (e_pert e);
    i_lr : forall r i, EvR r i ∈ log s -> exists e, bun s !! i = Some e /\ is_Some (e_read e !! r);
    i_lc : forall d r k, EvC d r k ∈ log s -> exists m, coup s !! k = Some m /\ is_Some (m !! (d, r));
  }.
  Lemma keeps_refl s : keeps s s.
  Proof. split_and!; [naive_solver|naive_solver|]. exists []. by rewrite app_nil_r. Qed.
  Lemma keeps_trans s1 s2 s3 : keeps s1 s2 -> keeps s2 s3 -> keeps s1 s3.
  Proof.
    intros (A1 & A2 & l1 & A3) (B1 & B2 & l2 & B3). split_and!.
    - intros i e He. destruct (A1 i e He) as (e' & He' & P1 & P2). destruct (B1 i e' He') as (e2 & He2 & Q1 & Q2).
      exists e2. split; [done|]. split; eauto.
    - intros k m d r c Hk Hm. destruct (A2 k m d r c Hk Hm) as (m' & Hk' & Hm'). eauto.
    - exists (l1 ++ l2). by rewrite B3, A3, app_assoc.
  Qed.
  (** as [keeps], and no readouts have been added *)
  Definition kp s s' : Prop := keeps s s' /\
    forall j e, bun s !! j = Some e -> exists e', bun s' !! j = Some e' /\ e_read e' = e_read e.
  Lemma kp_refl s : kp s s.
  Proof. split; [apply keeps_refl|eauto]. Qed.
  Lemma kp_trans s1 s2 s3 : kp s1 s2 -> kp s2 s3 -> kp s1 s3.
  Proof.
    intros [A1 A2] [B1 B2]. split; [by eapply keeps_trans|]. intros j e He.
    destruct (A2 j e He) as (e' & He' & Hr). destruct (B2 j e' He') as (e2 & He2 & Hr2). exists e2. split; [done|congruence].
  Qed.
  Lemma len_pos s : inv s -> 1 <= len s.
  Proof. intros [(e & He & _)]. apply lookup_lt_Some in He. unfold len. lia. Qed.

  Lemma set_pert_ok s i e : inv s -> (1 <= i)%nat -> bun s !! i = Some e -> e_pert e = None ->
    inv (set_pert s i (sol i)) /\ kp s (set_pert s i (sol i)) /\ len (set_pert s i (sol i)) = len s /\
    forall j, j <> i -> bun (set_pert s i (sol i)) !! j = bun s !! j.
  Proof.
    intros Hs Hi He Hp. unfold set_pert.
    assert (forall j, j <> i -> alter (fun e => Ent (Some (sol i)) (e_read e)) i (bun s) !! j = bun s !! j) as Hne
      by (intros j Hj; by rewrite list_lookup_alter_ne).
    assert (alter (fun e => Ent (Some (sol i)) (e_read e)) i (bun s) !! i = Some (Ent (Some (sol i)) (e_read e))) as Heq
      by (by rewrite list_lookup_alter, He).
    split_and!.
    - destruct Hs as [P0 P1 P2 P3 P4 P5 P6 P7]. split; simpl.
      + rewrite Hne by lia. done.
      + intros j e' v Hj Hv. destruct (decide (j = i)) as [->|Hji].
        * rewrite Heq in Hj. injection Hj as <-. simpl in Hv. congruence.
        * rewrite Hne in Hj by done. eauto.
      + intros j e' r t Hj Hr. destruct (decide (j = i)) as [->|Hji].
        * rewrite Heq in Hj. injection Hj as <-. simpl in Hr. eauto.
        * rewrite Hne in Hj by done. eauto.
      + done.
      + apply NoDup_app. split_and!; [done| |apply NoDup_singleton].
        intros ev Hev Hc%elem_of_list_singleton. subst. destruct (P5 i Hev) as (e' & He' & Hso).
        rewrite He in He'. injection He' as <-. rewrite Hp in Hso. by destruct Hso.
      + intros j Hj. destruct (decide (j = i)) as [->|Hji]; [eauto|]. rewrite Hne by done.
        apply elem_of_app in Hj as [Hj|Hj%elem_of_list_singleton]; [by apply P5|congruence].
      + intros r j Hj. apply elem_of_app in Hj as [Hj|Hj%elem_of_list_singleton]; [|done].
        destruct (P6 r j Hj) as (e' & He' & Hso). destruct (decide (j = i)) as [->|Hji].
        * rewrite Heq. eexists. split; [done|]. simpl. congruence.
        * rewrite Hne by done. eauto.
      + intros d r k Hj. apply elem_of_app in Hj as [Hj|Hj%elem_of_list_singleton]; [by apply P7|done].
    - split; [split_and!; simpl|simpl].
      + intros j e' Hj. destruct (decide (j = i)) as [->|Hji].
        * rewrite He in Hj. injection Hj as <-. rewrite Heq. eexists. split; [done|]. simpl. rewrite Hp. naive_solver.
        * rewrite Hne by done. eauto.
      + naive_solver.
      + eauto.
      + intros j e' Hj. destruct (decide (j = i)) as [->|Hji].
        * rewrite He in Hj. injection Hj as <-. rewrite Heq. eauto.
        * rewrite Hne by done. eauto.
    - unfold len. simpl. by rewrite alter_length.
    - done.
  Qed.
  Lemma push_lookup s i : (i < length (bun s))%nat -> bun (push s) !! i = bun s !! i.
  Proof. intros Hi. unfold push. simpl. by rewrite lookup_app_l. Qed.
  Lemma push_ok s : inv s -> inv (push s) /\ kp s (push s) /\ len (push s) = len s + 1.
  Proof.
    intros Hs. assert (forall i e, bun (push s) !! i = Some e -> bun s !! i = Some e \/ e = Ent None ∅) as Hl.
    { intros i e Hi. simpl in Hi. apply lookup_app_Some in Hi as [Hi|[_ Hi]]; [by left|].
      right. apply list_lookup_singleton_Some in Hi as [_ <-]. done. }
    assert (forall i e, bun s !! i = Some e -> bun (push s) !! i = Some e) as Hr.
    { intros i e Hi. rewrite push_lookup; [done|]. by eapply lookup_lt_Some. }
    split_and!.
    - destruct Hs as [P0 P1 P2 P3 P4 P5 P6 P7]. split.
      + destruct P0 as (e & He & Hp). eauto.
      + intros i e v Hi Hv. apply Hl in Hi as [Hi| ->]; [eauto|done].
      + intros i e r t Hi Hv. apply Hl in Hi as [Hi| ->]; [eauto|]. simpl in Hv. by rewrite lookup_empty in Hv.
      + exact P3.
      + exact P4.
      + intros i Hi. destruct (P5 i Hi) as (e & He & Hp). eauto.
      + intros r i Hi. destruct (P6 r i Hi) as (e & He & Hp). eauto.
      + exact P7.
    - split; [split_and!; [intros i e Hi; exists e; by auto|simpl; eauto|exists []; simpl; by rewrite app_nil_r]|].
      intros i e Hi. exists e. by auto.
    - unfold len, push. simpl. rewrite app_length. simpl. lia.
  Qed.

  Lemma idx_eq s N i : (i < length (bun s))%nat -> (N = Z.of_nat i \/ N = Z.of_nat i - len s) -> idx s N = Ok i.
  Proof.
    intros Hi HN. unfold idx, len in *. destruct (decide _) as [Hc|Hc].
    - f_equal. lia.
    - rewrite decide_True by lia. f_equal. lia.
  Qed.
  Lemma idx_inv s N i : idx s N = Ok i -> (i < length (bun s))%nat /\ (N = Z.of_nat i \/ N = Z.of_nat i - len s).
  Proof.
    unfold idx, len. destruct (decide _); [|destruct (decide _); [|done]]; intros [= <-]; lia.
  Qed.

  (** ** any answer is right *)
  (** what a lookup of order N gives when N is below the count: [i] is the entry meant *)
  Definition good (get : st -> Z -> res (st * S)) : Prop := forall s N s' v, inv s -> get s N = Ok (s', v) ->
    inv s' /\ kp s s' /\ (0 <= N -> v = sol (Z.to_nat N)) /\
    forall i, (i < length (bun s))%nat -> (N = Z.of_nat i \/ N = Z.of_nat i - len s \/ N = Z.of_nat i - 2 * len s) ->
      v = sol i /\ len s' = len s /\ forall j, (i < j)%nat -> bun s' !! j = bun s !! j.

  Lemma iterate_ok get s N s' v i e : good get -> inv s -> iterate step get s N = Ok (s', v) ->
    (1 <= i)%nat -> bun s !! i = Some e -> e_pert e = None -> (N = Z.of_nat i \/ N = Z.of_nat i - len s) ->
    inv s' /\ kp s s' /\ v = sol i /\ len s' = len s /\ forall j, (i < j)%nat -> bun s' !! j = bun s !! j.
  Proof.
    intros Hg Hs Hit Hi He Hp HN. unfold iterate in Hit.
    destruct (get s (N - 1)) as [[s1 prev]|] eqn:Hget; [|done]. simpl in Hit.
    destruct (Hg s (N - 1) s1 prev Hs Hget) as (Hs1 & Hk1 & _ & Hb).
    pose proof (lookup_lt_Some _ _ _ He) as Hlt.
    destruct (Hb (i - 1)%nat) as (-> & Hl1 & Habove); [lia|lia|].
    rewrite (idx_eq s1 N i) in Hit.
    2:{ unfold len in Hl1. lia. }
    2:{ by rewrite Hl1. }
    simpl in Hit. assert (step (sol (i - 1)) = sol i) as Hstep by (destruct i; [lia|]; simpl; by rewrite Nat.sub_0_r).
    rewrite Hstep in Hit. injection Hit as <- <-.
    destruct (set_pert_ok s1 i e) as (Q1 & Q2 & Q3 & Q4); [done|done|by rewrite Habove by lia|done|].
    split_and!; [done|by eapply kp_trans|done|by rewrite Q3|].
    intros j Hj. rewrite Q4 by lia. apply Habove. lia.
  Qed.

  Lemma sloop_ok get fuel : good get -> forall to stop s s', inv s -> sloop step conv get fuel to stop s = Ok s' ->
    inv s' /\ kp s s' /\ len s <= len s' <= Z.max (len s) (to + 1) /\
    (len s' = Z.max (len s) (to + 1) \/ stop = true /\ exists e v, bun s' !! Z.to_nat (len s' - 1) = Some e /\ e_pert e = Some v /\ conv v = true).
  Proof.
    intros Hg. induction fuel as [|fuel IH]; intros to stop s s' Hs Hl; [done|]. cbn [sloop] in Hl.
    destruct (decide (len s <= to)) as [Hle|Hgt].
    - destruct (push_ok s Hs) as (Hs1 & Hk1 & Hl1).
      pose proof (len_pos s Hs) as Hpos.
      destruct (iterate step get (push s) (len (push s) - 1)) as [[s2 v]|] eqn:Hit; [|done]. simpl in Hl.
      destruct (iterate_ok get (push s) _ s2 v (length (bun s)) (Ent None ∅) Hg Hs1 Hit) as (Hs2 & Hk2 & Hv & Hl2 & _).
      { unfold len in Hpos. lia. }
      { simpl. rewrite lookup_app_r by done. by rewrite Nat.sub_diag. }
      { done. }
      { left. rewrite Hl1. unfold len. lia. }
      assert (len s2 = len s + 1) as Hl2' by lia.
      destruct (stop && conv v) eqn:Hst.
      + injection Hl as <-. split_and!; [done|by eapply kp_trans|lia|lia|]. right.
        apply andb_true_iff in Hst as [-> Hc]. split; [done|].
        assert (Z.to_nat (len s2 - 1) = length (bun s)) as -> by (rewrite Hl2'; unfold len; lia).
        destruct (lookup_lt_is_Some_2 (bun s2) (length (bun s))) as [e He]. { unfold len in Hl2'. lia. }
        assert (exists v', e_pert e = Some v') as [v' Hv'].
        { unfold iterate in Hit. destruct (get (push s) _) as [[s3 p]|]; [|done]. simpl in Hit.
          destruct (idx s3 _) as [j|] eqn:Hj; [|done]. simpl in Hit. injection Hit as <- Hvv.
          apply idx_inv in Hj as [Hj1 Hj2].
          assert (len (set_pert s3 j (step p)) = len s3) as Hls by (unfold len; simpl; by rewrite alter_length).
          assert (j = length (bun s)) as -> by (unfold len in *; lia).
          simpl in He. rewrite list_lookup_alter in He. destruct (bun s3 !! length (bun s)); [|done].
          injection He as <-. eauto. }
        exists e, v'. split_and!; [done|done|]. rewrite (i_p _ Hs2 _ _ _ He Hv'), <- Hv. done.
      + destruct (IH to stop s2 s' Hs2 Hl) as (Q1 & Q2 & Q3 & Q4).
        split_and!; [done|by eapply kp_trans, kp_trans|lia|lia|].
        destruct Q4 as [Q4|Q4]; [left; lia|by right].
    - injection Hl as <-. split_and!; [done|apply kp_refl|lia|lia|left; lia].
  Qed.

  Lemma solve_with_ok get fuel s order s' : good get -> inv s ->
    solve_with step conv max_N exact_order get fuel s order = Ok s' ->
    inv s' /\ kp s s' /\ len s <= len s' /\
    match exact_order with
    | Some x => len s' = Z.max (len s) (x + 1) + 1
    | None => match order with
              | Some o => len s' = Z.max (len s) (o + 1)
              | None => len s' <= Z.max (len s) (max_N + 1) /\
                        (len s' < Z.max (len s) (max_N + 1) ->
                          exists e v, bun s' !! Z.to_nat (len s' - 1) = Some e /\ e_pert e = Some v /\ conv v = true)
              end
    end.
  Proof.
    intros Hg Hs Hl. unfold solve_with in Hl. destruct exact_order as [x|].
    - destruct (sloop step conv get fuel x false s) as [s1|] eqn:H1; [|done]. simpl in Hl. injection Hl as <-.
      destruct (sloop_ok get fuel Hg _ _ _ _ Hs H1) as (Q1 & Q2 & Q3 & Q4).
      destruct (push_ok s1 Q1) as (P1 & P2 & P3).
      split_and!; [done|by eapply kp_trans|lia|]. destruct Q4 as [Q4|[? _]]; [lia|done].
    - destruct (sloop _ _ _ _ _ _ _) as [s1|] eqn:H1; [|done]. simpl in Hl.
      destruct (sloop_ok get fuel Hg _ _ _ _ Hs H1) as (Q1 & Q2 & Q3 & Q4).
      destruct (push_ok s1 Q1) as (P1 & P2 & P3). pose proof (len_pos s1 Q1) as Hpos.
      destruct order as [o|].
      + destruct Q4 as [Q4|[? _]]; [|done]. rewrite decide_False in Hl by lia. injection Hl as <-.
        split_and!; [done|done|lia|lia].
      + destruct (decide (len s1 = max_N)) as [He|Hne]; injection Hl as <-.
        * split_and!; [done|by eapply kp_trans|lia|lia|lia].
        * split_and!; [done|done|lia|lia|]. intros Hlt. destruct Q4 as [Q4|[_ Q4]]; [lia|done].
  Qed.

  (** what [locate] finds *)
  Lemma locate_ok get fuel s N s' N' i : good get -> inv s ->
    locate step conv max_N exact_order get fuel s N = Ok (s', N', i) ->
    inv s' /\ kp s s' /\ len s <= len s' /\ (i < length (bun s'))%nat /\ (N' = Z.of_nat i \/ N' = Z.of_nat i - len s') /\
    match N with
    | None => N' = Z.of_nat i /\ Z.of_nat i = len s' - 1 /\ (len s <> 1 -> s' = s)
    | Some n => (0 <= n -> N' = n /\ Z.of_nat i = n /\ (n < len s -> s' = s)) /\ (n < 0 -> s' = s /\ N' = len s + n)
    end.
  Proof.
    intros Hg Hs Hl. unfold locate in Hl. pose proof (len_pos s Hs) as Hpos. destruct N as [n|].
    - simpl in Hl. destruct (decide (n < 0)) as [Hn|Hn].
      + rewrite decide_True in Hl by lia. simpl in Hl.
        destruct (idx s (len s + n)) as [j|] eqn:Hj; [|done]. injection Hl as <- <- <-.
        apply idx_inv in Hj as [J1 J2]. split_and!; [done|apply kp_refl|lia|done|done|lia|done].
      + destruct (decide (n < len s)) as [Hlt|Hge].
        * simpl in Hl. destruct (idx s n) as [j|] eqn:Hj; [|done]. injection Hl as <- <- <-.
          apply idx_inv in Hj as [J1 J2]. split_and!; [done|apply kp_refl|lia|done|done| |lia].
          intros _. split_and!; [done| |done]. unfold len in *. lia.
        * destruct (solve_with _ _ _ _ _ _ _ _) as [s1|] eqn:H1; [|done]. simpl in Hl.
          apply solve_with_ok in H1 as (Q1 & Q2 & Q3 & Q4); [|done|done].
          destruct (idx s1 n) as [j|] eqn:Hj; [|done]. injection Hl as <- <- <-.
          apply idx_inv in Hj as [J1 J2]. split_and!; [done|done|done|done|done| |lia].
          intros _. unfold len in *. split_and!; [done|lia|lia].
    - destruct (decide (len s = 1)) as [H1|Hn1].
      + destruct (solve_with _ _ _ _ _ _ _ _) as [s1|] eqn:H2; [|done]. simpl in Hl.
        apply solve_with_ok in H2 as (Q1 & Q2 & Q3 & Q4); [|done|done].
        rewrite decide_True in Hl by lia. simpl in Hl.
        destruct (idx s1 _) as [j|] eqn:Hj; [|done]. injection Hl as <- <- <-.
        apply idx_inv in Hj as [J1 J2]. unfold len in *. split_and!; try done; lia.
      + simpl in Hl. rewrite decide_True in Hl by lia. simpl in Hl.
        destruct (idx s _) as [j|] eqn:Hj; [|done]. injection Hl as <- <- <-.
        apply idx_inv in Hj as [J1 J2]. unfold len in *. split_and!; try done; try apply kp_refl; lia.
  Qed.

  Notation pget := (pget step conv max_N exact_order).
  Lemma pget_ok fuel : forall s N s' v, inv s -> pget fuel s N = Ok (s', v) ->
    inv s' /\ kp s s' /\ len s <= len s' /\
    match N with
    | None => v = sol (Z.to_nat (len s' - 1))
    | Some n => (0 <= n -> v = sol (Z.to_nat n) /\ n < len s') /\
      forall i, (i < length (bun s))%nat -> (n = Z.of_nat i \/ n = Z.of_nat i - len s \/ n = Z.of_nat i - 2 * len s) ->
        v = sol i /\ len s' = len s /\ forall j, (i < j)%nat -> bun s' !! j = bun s !! j
    end.
  Proof.
    induction fuel as [|fuel IH]; intros s N s' v Hs Hg; [done|]. cbn [SolModel.pget] in Hg.
    set (get := fun s N => pget fuel s (Some N)) in Hg.
    assert (good get) as Hgood.
    { intros s0 N0 s0' v0 Hs0 Hv0. destruct (IH s0 (Some N0) s0' v0 Hs0 Hv0) as (Q1 & Q2 & _ & Q3 & Q4).
      split_and!; [done|done|naive_solver|done]. }
    destruct (locate _ _ _ _ _ _ _ _) as [[[s1 N'] i]|] eqn:Hloc; [|done]. simpl in Hg.
    apply locate_ok in Hloc as (Hs1 & Hk1 & Hle & Hi & HN' & Hspec); [|done|done].
    destruct (lookup_lt_is_Some_2 (bun s1) i Hi) as [e He]. rewrite He in Hg.
    assert (inv s' /\ kp s1 s' /\ v = sol i /\ len s' = len s1 /\ forall j, (i < j)%nat -> bun s' !! j = bun s1 !! j)
      as (R1 & R2 & R3 & R4 & R5).
    { destruct e as [[w|] rd].
      - injection Hg as <- <-. split_and!; [done|apply kp_refl|by eapply (i_p _ Hs1 _ _ _ He)|done|done].
      - assert (1 <= i)%nat as Hi1.
        { destruct (i_0 _ Hs1) as (e0 & He0 & Hp0). destruct i; [|lia]. rewrite He in He0. injection He0 as <-. done. }
        by eapply (iterate_ok get s1 N' s' v i _ Hgood Hs1 Hg Hi1 He). }
    split_and!; [done|by eapply kp_trans|lia|]. destruct N as [n|].
    - destruct Hspec as [S1 S2]. split.
      + intros Hn. destruct (S1 Hn) as (-> & Hni & _). split; [rewrite R3; f_equal; lia|]. rewrite R4. unfold len. lia.
      + intros k Hk Hnk. pose proof (len_pos s Hs) as Hpos.
        assert (s1 = s /\ i = k) as [-> ->].
        { destruct (decide (0 <= n)) as [Hn|Hn].
          - destruct (S1 Hn) as (_ & Hin & Heq). unfold len in *. split; [apply Heq; lia|lia].
          - destruct S2 as [-> S2]; [lia|]. split; [done|]. unfold len in *. lia. }
        done.
    - destruct Hspec as (_ & S2 & _). rewrite R3, R4, <- S2. f_equal. lia.
  Qed.
  Lemma pget_good fuel : good (fun s N => pget fuel s (Some N)).
  Proof.
    intros s0 N0 s0' v0 Hs0 Hv0. destruct (pget_ok fuel s0 (Some N0) s0' v0 Hs0 Hv0) as (Q1 & Q2 & _ & Q3 & Q4).
    split_and!; [done|done|naive_solver|done].
  Qed.
  Lemma set_read_ok s i e r prev : inv s -> bun s !! i = Some e -> e_read e !! r = None ->
    ((1 <= i)%nat -> prev = sol (i - 1)) ->
    inv (set_read s i r (full r prev)) /\ keeps s (set_read s i r (full r prev)) /\ len (set_read s i r (full r prev)) = len s.
  Proof.
    intros Hs He Hn Hprev. unfold set_read. set (f := fun e => Ent (e_pert e) (<[r := full r prev]> (e_read e))).
    assert (forall j, j <> i -> alter f i (bun s) !! j = bun s !! j) as Hne
      by (intros j Hj; by rewrite list_lookup_alter_ne).
    assert (alter f i (bun s) !! i = Some (f e)) as Heq by (by rewrite list_lookup_alter, He).
    assert (forall r' t, e_read e !! r' = Some t -> e_read (f e) !! r' = Some t) as Hrd.
    { intros r' t Hr'. unfold f. simpl. rewrite lookup_insert_ne; [done|]. intros ->. congruence. }
    split_and!.
    - destruct Hs as [P0 P1 P2 P3 P4 P5 P6 P7]. split; simpl.
      + destruct (decide (0%nat = i)) as [<-|Hi]; [|rewrite Hne by done; done].
        rewrite Heq. destruct P0 as (e0 & He0 & Hp0). rewrite He in He0. injection He0 as <-. eexists. split; [done|]. done.
      + intros j e' v Hj Hv. destruct (decide (j = i)) as [->|Hji].
        * rewrite Heq in Hj. injection Hj as <-. simpl in Hv. eauto.
        * rewrite Hne in Hj by done. eauto.
      + intros j e' r' t Hj Hr Hj1. destruct (decide (j = i)) as [->|Hji].
        * rewrite Heq in Hj. injection Hj as <-. unfold f in Hr. simpl in Hr.
          destruct (decide (r' = r)) as [->|Hrr].
          -- rewrite lookup_insert in Hr. injection Hr as <-. by rewrite Hprev.
          -- rewrite lookup_insert_ne in Hr by done. eauto.
        * rewrite Hne in Hj by done. eauto.
      + done.
      + apply NoDup_app. split_and!; [done| |apply NoDup_singleton].
        intros ev Hev Hc%elem_of_list_singleton. subst. destruct (P6 r i Hev) as (e' & He' & Hso).
        rewrite He in He'. injection He' as <-. rewrite Hn in Hso. by destruct Hso.
      + intros j Hj. apply elem_of_app in Hj as [Hj|Hj%elem_of_list_singleton]; [|done].
        destruct (P5 j Hj) as (e' & He' & Hso). destruct (decide (j = i)) as [->|Hji].
        * rewrite Heq. eexists. split; [done|]. simpl. congruence.
        * rewrite Hne by done. eauto.
      + intros r' j Hj. apply elem_of_app in Hj as [Hj|Hj%elem_of_list_singleton].
        * destruct (P6 r' j Hj) as (e' & He' & t & Ht). destruct (decide (j = i)) as [->|Hji].
          -- rewrite Heq. eexists. split; [done|]. rewrite He in He'. injection He' as <-. eauto.
          -- rewrite Hne by done. eauto.
        * injection Hj as -> ->. rewrite Heq. eexists. split; [done|]. unfold f. simpl. rewrite lookup_insert. eauto.
      + intros d r' k Hj. apply elem_of_app in Hj as [Hj|Hj%elem_of_list_singleton]; [by apply P7|done].
    - split_and!; simpl.
      + intros j e' Hj. destruct (decide (j = i)) as [->|Hji].
        * rewrite He in Hj. injection Hj as <-. rewrite Heq. eexists. split; [done|]. split; [done|]. apply Hrd.
        * rewrite Hne by done. eauto.
      + naive_solver.
      + eauto.
    - unfold len. simpl. by rewrite alter_length.
  Qed.
  Notation dget := (dget step conv full max_N exact_order).
  Lemma dget_ok fuel s r N s' t : inv s -> dget fuel s r N = Ok (s', t) ->
    inv s' /\ keeps s s' /\ len s <= len s' /\
    match N with
    | None => 2 <= len s' -> t = full r (sol (Z.to_nat (len s' - 2)))
    | Some n => (1 <= n -> t = full r (sol (Z.to_nat (n - 1)))) /\
                (n < 0 -> 1 <= len s + n -> t = full r (sol (Z.to_nat (len s + n - 1))))
    end.
  Proof.
    intros Hs Hg. unfold SolModel.dget in Hg.
    destruct (locate _ _ _ _ _ _ _ _) as [[[s1 N'] i]|] eqn:Hloc; [|done]. simpl in Hg.
    apply locate_ok in Hloc as (Hs1 & [Hk1 _] & Hle & Hi & HN' & Hspec); [|apply pget_good|done].
    destruct (lookup_lt_is_Some_2 (bun s1) i Hi) as [e He]. rewrite He in Hg. simpl in Hg.
    pose proof (len_pos s Hs) as Hpos0. pose proof (len_pos s1 Hs1) as Hpos.
    assert (inv s' /\ keeps s1 s' /\ len s' = len s1 /\ ((1 <= i)%nat -> t = full r (sol (i - 1)))) as (R1 & R2 & R3 & R4).
    { destruct (e_read e !! r) as [t0|] eqn:Hr.
      - injection Hg as <- <-. split_and!; [done|apply keeps_refl|done|]. intros Hi1. by apply (i_r _ Hs1 i e).
      - destruct (pget fuel s1 (Some (N' - 1))) as [[s2 prev]|] eqn:Hp; [|done]. simpl in Hg. injection Hg as <- <-.
        destruct (pget_ok fuel s1 _ s2 prev Hs1 Hp) as (Q1 & [Q2 Q2'] & Q3 & Q4 & Q5).
        assert ((1 <= i)%nat -> prev = sol (i - 1)) as Hprev.
        { intros Hi1. destruct (Q5 (i - 1)%nat) as [-> _]; [lia|lia|done]. }
        destruct (Q2' i e He) as (e2 & He2 & Hr2).
        destruct (set_read_ok s2 i e2 r prev Q1 He2) as (W1 & W2 & W3); [by rewrite Hr2|done|].
        assert (len s2 = len s1) as Hl2.
        { destruct i as [|i].
          - destruct (Q5 (length (bun s1) - 1)%nat) as (_ & -> & _); [lia| |done]. unfold len in *. lia.
          - destruct (Q5 i) as (_ & -> & _); [lia|lia|done]. }
        split_and!; [done|by eapply keeps_trans|lia|]. intros Hi1. by rewrite Hprev. }
    split_and!; [done|by eapply keeps_trans|lia|]. destruct N as [n|].
    - destruct Hspec as [S1 S2]. split.
      + intros Hn. destruct S1 as (-> & Hin & _); [lia|]. rewrite R4 by lia. do 2 f_equal. lia.
      + intros Hn Hle2. destruct S2 as [-> S2]; [done|]. unfold len in *. rewrite R4 by lia. do 2 f_equal. lia.
    - destruct Hspec as (_ & Hil & _). intros H2. rewrite R4 by lia. do 2 f_equal. lia.
  Qed.
  Notation solve := (solve step conv max_N exact_order).
  Lemma solve_ok fuel s order s' : inv s -> solve fuel s order = Ok s' ->
    inv s' /\ keeps s s' /\ len s <= len s' /\
    match exact_order with
    | Some x => len s' = Z.max (len s) (x + 1) + 1
    | None => match order with
              | Some o => len s' = Z.max (len s) (o + 1)
              | None => len s' <= Z.max (len s) (max_N + 1) /\
                        (len s' < Z.max (len s) (max_N + 1) ->
                          exists e v, bun s' !! Z.to_nat (len s' - 1) = Some e /\ e_pert e = Some v /\ conv v = true)
              end
    end.
  Proof.
    intros Hs Hl. destruct (solve_with_ok _ fuel s order s' (pget_good fuel) Hs Hl) as (Q1 & [Q2 _] & Q3 & Q4). done.
  Qed.
  Lemma set_coup_ok s d r N prev : inv s -> default ∅ (coup s !! N) !! (d, r) = None ->
    (1 <= N -> prev = sol (Z.to_nat (N - 1))) ->
    let s' := St (bun s) (<[N := <[(d, r) := couple d r prev]> (default ∅ (coup s !! N))]> (coup s)) (log s ++ [EvC d r N]) in
    inv s' /\ keeps s s'.
  Proof.
    intros Hs Hn Hprev s'. destruct Hs as [P0 P1 P2 P3 P4 P5 P6 P7].
    assert (forall m d' r' c, coup s !! N = Some m -> m !! (d', r') = Some c ->
      <[(d, r) := couple d r prev]> (default ∅ (coup s !! N)) !! (d', r') = Some c) as Hold.
    { intros m d' r' c Hm Hc. rewrite Hm in Hn |- *. simpl in *. rewrite lookup_insert_ne; [done|]. intros E. congruence. }
    split.
    - split; simpl; try done.
      + intros k m d' r' c Hk Hm Hk1. destruct (decide (k = N)) as [->|Hne].
        * rewrite lookup_insert in Hk. injection Hk as <-. destruct (decide ((d', r') = (d, r))) as [[= -> ->]|Hdr].
          -- rewrite lookup_insert in Hm. injection Hm as <-. by rewrite Hprev.
          -- rewrite lookup_insert_ne in Hm by done. destruct (coup s !! N) as [m0|] eqn:Hm0; simpl in Hm.
             ++ by apply (P3 N m0).
             ++ by rewrite lookup_empty in Hm.
        * rewrite lookup_insert_ne in Hk by done. by apply (P3 k m).
      + apply NoDup_app. split_and!; [done| |apply NoDup_singleton].
        intros ev Hev Hc%elem_of_list_singleton. subst. destruct (P7 d r N Hev) as (m & Hm & [c Hc]).
        rewrite Hm in Hn. simpl in Hn. congruence.
      + intros i Hi. apply elem_of_app in Hi as [Hi|Hi%elem_of_list_singleton]; [by apply P5|done].
      + intros r' i Hi. apply elem_of_app in Hi as [Hi|Hi%elem_of_list_singleton]; [by apply P6|done].
      + intros d' r' k Hi. apply elem_of_app in Hi as [Hi|Hi%elem_of_list_singleton].
        * destruct (P7 d' r' k Hi) as (m & Hm & c & Hc). destruct (decide (k = N)) as [->|Hne].
          -- rewrite lookup_insert. eexists. split; [done|]. rewrite (Hold m d' r' c); eauto.
          -- rewrite lookup_insert_ne by done. eauto.
        * injection Hi as -> -> ->. rewrite lookup_insert. eexists. split; [done|]. rewrite lookup_insert. eauto.
    - split_and!; simpl; [eauto| |eauto].
      intros k m d' r' c Hk Hm. destruct (decide (k = N)) as [->|Hne].
      + rewrite lookup_insert. eauto.
      + rewrite lookup_insert_ne by done. eauto.
  Qed.
  Lemma pget_coup get : (forall s N s' v, get s N = Ok (s', v) -> coup s' = coup s) ->
    forall fuel s N s' v, iterate step get s N = Ok (s', v) \/ (exists to stop, sloop (R := R) (D := D) (T := T) (C := C) step conv get fuel to stop s = Ok s') -> coup s' = coup s.
  Proof.
    intros Hg. assert (forall s N s' v, iterate step get s N = Ok (s', v) -> coup s' = coup s) as Hit.
    { intros s N s' v. unfold iterate. destruct (get s (N - 1)) as [[s1 p]|] eqn:E; [|done]. simpl.
      destruct (idx s1 N); [|done]. simpl. intros [= <- <-]. simpl. by eapply Hg. }
    induction fuel as [|fuel IH]; intros s N s' v [Hi|(to & stop & Hl)]; [by apply (Hit s N s' v)|done|by apply (Hit s N s' v)|].
    - cbn [sloop] in Hl. destruct (decide _) as [Hc|Hc]; [|by injection Hl as <-].
      destruct (iterate step get (push s) _) as [[s2 w]|] eqn:E; [|done]. simpl in Hl. apply Hit in E. simpl in E.
      destruct (stop && conv w); [by injection Hl as <-|].
      rewrite <- E. apply (IH s2 0 s' init). right. by exists to, stop.
  Qed.
  Lemma locate_coup get : (forall s N s' v, get s N = Ok (s', v) -> coup s' = coup s) ->
    forall fuel s order s', solve_with step conv max_N exact_order get fuel s order = Ok s' -> coup s' = coup s.
  Proof.
    intros Hg fuel s order s' Hl. unfold solve_with in Hl. destruct exact_order as [x|].
    - destruct (sloop _ _ _ _ _ _ _) as [s1|] eqn:E; [|done]. simpl in Hl. injection Hl as <-. simpl.
      apply (pget_coup get Hg fuel s 0 s1 init). right. by exists x, false.
    - destruct (sloop _ _ _ _ _ _ _) as [s1|] eqn:E; [|done]. simpl in Hl.
      assert (coup s1 = coup s) as E1 by (apply (pget_coup get Hg fuel s 0 s1 init); right; by eexists _, _).
      destruct (decide _); injection Hl as <-; done.
  Qed.
  Lemma pget_keeps_coup fuel : forall s N s' v, pget fuel s N = Ok (s', v) -> coup s' = coup s.
  Proof.
    induction fuel as [|fuel IH]; intros s N s' v Hg; [done|]. cbn [SolModel.pget] in Hg.
    set (get := fun s N => pget fuel s (Some N)) in Hg.
    assert (forall s N s' v, get s N = Ok (s', v) -> coup s' = coup s) as Hget by (intros ????; apply IH).
    destruct (locate _ _ _ _ _ _ _ _) as [[[s1 N'] i]|] eqn:Hloc; [|done]. simpl in Hg.
    assert (coup s1 = coup s) as E1.
    { unfold locate in Hloc. destruct N as [n|].
      - simpl in Hloc. destruct (decide (_ < len s)) as [_|_].
        + simpl in Hloc. destruct (idx _ _); [|done]. by injection Hloc as <- _ _.
        + destruct (solve_with _ _ _ _ _ _ _ _) as [s2|] eqn:E; [|done]. simpl in Hloc.
          destruct (idx _ _); [|done]. injection Hloc as <- _ _. by eapply locate_coup.
      - destruct (decide (len s = 1)) as [_|_].
        + destruct (solve_with _ _ _ _ _ _ s None) as [s2|] eqn:E; [|done]. simpl in Hloc.
          apply locate_coup in E; [|done]. destruct (decide (_ < len s2)) as [_|_].
          * simpl in Hloc. destruct (idx _ _); [|done]. by injection Hloc as <- _ _.
          * destruct (solve_with _ _ _ _ _ _ s2 _) as [s3|] eqn:E3; [|done]. simpl in Hloc. apply locate_coup in E3; [|done].
            destruct (idx _ _); [|done]. injection Hloc as <- _ _. congruence.
        + simpl in Hloc. destruct (decide (_ < len s)) as [_|_].
          * simpl in Hloc. destruct (idx _ _); [|done]. by injection Hloc as <- _ _.
          * destruct (solve_with _ _ _ _ _ _ _ _) as [s2|] eqn:E; [|done]. simpl in Hloc.
            destruct (idx _ _); [|done]. injection Hloc as <- _ _. by eapply locate_coup. }
    destruct (bun s1 !! i) as [[[w|] rd]|]; [by injection Hg as <- <-|..];
      rewrite <- E1; eapply (pget_coup get Hget 0 s1 N' s' v); by left.
  Qed.
  Notation cget := (cget step conv couple max_N exact_order).
  Lemma cget_ok fuel s d r N s' c : inv s -> cget fuel s d r N = Ok (s', c) ->
    inv s' /\ keeps s s' /\ len s <= len s' /\
    match N with
    | None => 2 <= len s' -> c = couple d r (sol (Z.to_nat (len s' - 2)))
    | Some n => (1 <= n -> c = couple d r (sol (Z.to_nat (n - 1)))) /\
                (n <= 0 -> 1 <= len s + n -> c = couple d r (sol (Z.to_nat (len s + n - 1))))
    end.
  Proof.
    intros Hs Hg. unfold SolModel.cget in Hg.
    set (A := match N with None => _ | Some _ => _ end) in Hg.
    destruct A as [[s1 k]|] eqn:HA; [|done]. simpl in Hg. subst A.
    assert (inv s1 /\ keeps s s1 /\ len s <= len s1 /\
      match N with None => k = len s1 - 1 | Some n => s1 = s /\ (1 <= n -> k = n) /\ (n <= 0 -> k = len s + n) end) as (Hs1 & Hk1 & Hle & HN).
    { destruct N as [n|].
      - injection HA as <- <-. split_and!; [done|apply keeps_refl|done|done|intros; by rewrite decide_False by lia|intros; by rewrite decide_True by lia].
      - destruct (decide (len s = 1)) as [_|_].
        + destruct (solve fuel s None) as [s2|] eqn:E; [|done]. injection HA as <- <-.
          apply solve_ok in E as (Q1 & Q2 & Q3 & _); done.
        + injection HA as <- <-. split_and!; [done|apply keeps_refl|done|done]. }
    assert (inv s' /\ keeps s1 s' /\ len s1 <= len s' /\ (k < len s1 + 1 -> 1 <= k -> len s' = len s1) /\
      (1 <= k -> c = couple d r (sol (Z.to_nat (k - 1))))) as (R1 & R2 & R3 & R4 & R5).
    { destruct (default ∅ (coup s1 !! k) !! (d, r)) as [c0|] eqn:Hc.
      - injection Hg as <- <-. split_and!; [done|apply keeps_refl|done|done|]. intros Hk.
        destruct (coup s1 !! k) as [m|] eqn:Hm; simpl in Hc; [|by rewrite lookup_empty in Hc]. by apply (i_c _ Hs1 k m).
      - destruct (pget fuel s1 (Some (k - 1))) as [[s2 prev]|] eqn:Hp; [|done]. simpl in Hg. injection Hg as <- <-.
        pose proof (pget_keeps_coup _ _ _ _ _ Hp) as Hcp.
        destruct (pget_ok fuel s1 _ s2 prev Hs1 Hp) as (Q1 & [Q2 _] & Q3 & Q4 & Q5).
        assert (1 <= k -> prev = sol (Z.to_nat (k - 1))) as Hprev. { intros Hk. apply Q4. lia. }
        destruct (set_coup_ok s2 d r k prev Q1) as (W1 & W2); [by rewrite Hcp|done|].
        split_and!; [done|by eapply keeps_trans|done| |].
        + intros Hk Hk1'. destruct (Q5 (Z.to_nat (k - 1))) as (_ & Hl2 & _); [unfold len in *; lia|left; lia|]. unfold len in *. simpl. lia.
        + intros Hk. by rewrite Hprev. }
    split_and!; [done|by eapply keeps_trans|lia|]. destruct N as [n|].
    - destruct HN as (-> & HN1 & HN2). split.
      + intros Hn. rewrite HN1 in R5 by done. by apply R5.
      + intros Hn Hl. rewrite HN2 in R5 by done. by apply R5.
    - subst k. intros H2. destruct (decide (len s1 - 1 < 1)) as [Hl|Hl].
      + (* len s1 = 1: the key is 0 and nothing can be added *)
        exfalso. pose proof (len_pos s1 Hs1) as Hpos. assert (len s1 = 1) as H1 by lia.
        assert (len s' = len s1); [|lia].
        destruct (default ∅ (coup s1 !! (len s1 - 1)) !! (d, r)) as [c0|]; [by injection Hg as <- <-|].
        destruct (pget fuel s1 (Some (len s1 - 1 - 1))) as [[s2 prev]|] eqn:Hp; [|done]. simpl in Hg. injection Hg as <- <-.
        destruct (pget_ok fuel s1 _ s2 prev Hs1 Hp) as (Q1 & _ & Q3 & Q4 & Q5).
        destruct (Q5 0%nat) as (_ & Hl2 & _); [unfold len in *; lia|right; left; lia|]. exact Hl2.
      + rewrite R4 by lia. rewrite R5 by lia. do 2 f_equal. rewrite R4 in H2 by lia. lia.
  Qed.

  Notation run := (run step conv full couple max_N exact_order).
  Lemma st0_inv : inv (st0 init).
  Proof.
    split; simpl.
    - eauto.
    - intros [|i] e v He Hv; [|done]. injection He as <-. simpl in Hv. by injection Hv as <-.
    - intros [|i] e r t He Hv; [lia|done].
    - intros k m d r c Hk. by rewrite lookup_empty in Hk.
    - constructor.
    - intros i Hi. by apply elem_of_nil in Hi.
    - intros r i Hi. by apply elem_of_nil in Hi.
    - intros d r i Hi. by apply elem_of_nil in Hi.
  Qed.
  Lemma exec_ok fuel s o s' a : inv s -> exec step conv full couple max_N exact_order fuel s o = Ok (s', a) ->
    inv s' /\ keeps s s' /\ len s <= len s'.
  Proof.
    intros Hs He. destruct o as [order|N|r N|d r N]; simpl in He.
    - destruct (solve fuel s order) as [s1|] eqn:E; [|done]. injection He as <- <-. apply solve_ok in E; [naive_solver|done].
    - destruct (pget fuel s N) as [[s1 v]|] eqn:E; [|done]. injection He as <- <-. apply pget_ok in E; [|done].
      destruct E as (? & [? _] & ? & _). done.
    - destruct (dget fuel s r N) as [[s1 v]|] eqn:E; [|done]. injection He as <- <-. apply dget_ok in E; [naive_solver|done].
    - destruct (cget fuel s d r N) as [[s1 v]|] eqn:E; [|done]. injection He as <- <-. apply cget_ok in E; [naive_solver|done].
  Qed.
  Lemma run_ok fuel os s s' : inv s -> run fuel os s = Ok s' -> inv s' /\ keeps s s' /\ len s <= len s'.
  Proof.
    revert s. induction os as [|o os IH]; intros s Hs Hr; unfold SolModel.run in Hr; simpl in Hr.
    - injection Hr as <-. split_and!; [done|apply keeps_refl|done].
    - destruct (exec _ _ _ _ _ _ _ _ _) as [[s1 a]|] eqn:E; [|done]. simpl in Hr.
      apply exec_ok in E as (Q1 & Q2 & Q3); [|done]. destruct (IH s1 Q1 Hr) as (P1 & P2 & P3).
      split_and!; [done|by eapply keeps_trans|lia].
  Qed.
  Lemma reach_inv fuel os s : run fuel os (st0 init) = Ok s -> inv s.
  Proof. intros Hr. destruct (run_ok fuel os (st0 init) s st0_inv Hr). done. Qed.

  (** ** answers exist *)
  Lemma pget_total fuel : forall s N i, inv s -> (i < length (bun s))%nat -> (i < fuel)%nat ->
    (N = Z.of_nat i \/ N = Z.of_nat i - len s \/ N = Z.of_nat i - 2 * len s) -> exists s' v, pget fuel s (Some N) = Ok (s', v).
  Proof.
    induction fuel as [|fuel IH]; intros s N i Hs Hi Hf HN; [lia|]. cbn [SolModel.pget].
    set (get := fun s N => pget fuel s (Some N)). pose proof (len_pos s Hs) as Hpos.
    assert (exists N', locate step conv max_N exact_order get fuel s (Some N) = Ok (s, N', i) /\ (N' = Z.of_nat i \/ N' = Z.of_nat i - len s)) as (N' & Hl & HN').
    { unfold locate. set (n := if decide (N < 0) then len s + N else N).
      assert (n = Z.of_nat i \/ n = Z.of_nat i - len s) as Hn by (unfold n, len in *; destruct (decide _); lia).
      cbn -[len idx]. change (Ok (s, n) ≫= ?k) with (k (s, n)). cbv beta iota.
      rewrite decide_True by (unfold len in *; lia). simpl. rewrite (idx_eq s n i) by done. simpl. eauto. }
    rewrite Hl. simpl. destruct (lookup_lt_is_Some_2 (bun s) i Hi) as [e He]. rewrite He.
    destruct e as [[w|] rd]; [eauto|].
    destruct i as [|i].
    { destruct (i_0 _ Hs) as (e0 & He0 & Hp0). rewrite He in He0. by injection He0 as <-. }
    unfold iterate. destruct (IH s (N' - 1) i) as (s1 & v & E); [done|lia|lia|lia|].
    unfold get at 1. rewrite E. simpl.
    destruct (pget_good fuel s (N' - 1) s1 v Hs E) as (_ & _ & _ & Q).
    destruct (Q i) as (_ & Hl1 & _); [lia|lia|].
    rewrite (idx_eq s1 N' (Datatypes.S i)); [simpl; eauto|unfold len in *; lia|by rewrite Hl1].
  Qed.
  Lemma sloop_total fuel f2 to stop : forall s, inv s -> len s <= Z.of_nat fuel -> to < Z.of_nat fuel ->
    Z.max 0 (to + 1 - len s) < Z.of_nat f2 -> exists s', sloop step conv (fun s N => pget fuel s (Some N)) f2 to stop s = Ok s'.
  Proof.
    induction f2 as [|f2 IH]; intros s Hs Hl Hto Hf2; [lia|]. cbn [sloop]. destruct (decide (len s <= to)) as [Hle|]; [|eauto].
    destruct (push_ok s Hs) as (Hs1 & Hk1 & Hl1). pose proof (len_pos s Hs) as Hpos.
    assert (exists s2 v, iterate step (fun s N => pget fuel s (Some N)) (push s) (len (push s) - 1) = Ok (s2, v)) as (s2 & v & Hit).
    { unfold iterate. destruct (pget_total fuel (push s) (len (push s) - 1 - 1) (length (bun s) - 1)) as (s1 & v & E).
      - done.
      - unfold len in *. lia.
      - unfold len in *. lia.
      - left. unfold len in *. lia.
      - rewrite E. simpl. destruct (pget_good fuel _ _ s1 v Hs1 E) as (_ & _ & _ & Q).
        destruct (Q (length (bun s) - 1)%nat) as (_ & Hl3 & _); [unfold len in *; lia|left; unfold len in *; lia|].
        rewrite (idx_eq s1 _ (length (bun s))); [simpl; eauto|unfold len in *; lia|left; unfold len in *; lia]. }
    rewrite Hit. simpl.
    destruct (iterate_ok _ (push s) _ s2 v (length (bun s)) (Ent None ∅) (pget_good fuel) Hs1 Hit) as (Hs2 & Hk2 & Hv & Hl2 & _).
    { unfold len in Hpos. lia. }
    { simpl. rewrite lookup_app_r by done. by rewrite Nat.sub_diag. }
    { done. }
    { left. rewrite Hl1. unfold len. lia. }
    destruct (stop && conv v); [eauto|]. apply IH; [done|lia|lia|lia].
  Qed.
  Context (Hex : exact_order = None).
  (** how many solutions there can be after looking up order N *)
  Definition most (N : option Z) s : Z := Z.max (len s) (Z.max (max_N + 1) (default 0 N + 1)).
  Lemma solve_total fuel s order : inv s -> most order s < Z.of_nat fuel ->
    exists s', solve_with step conv max_N exact_order (fun s N => pget fuel s (Some N)) fuel s order = Ok s' /\ len s' <= most order s.
  Proof.
    intros Hs Hf. assert (exists s', solve_with step conv max_N exact_order (fun s N => pget fuel s (Some N)) fuel s order = Ok s') as [s' E].
    { unfold solve_with. rewrite Hex. cbv zeta. set (to := match order with Some o => o | None => max_N end).
      set (stop := match order with Some _ => false | None => true end).
      unfold most in Hf. pose proof (len_pos s Hs) as Hpos.
      destruct (sloop_total fuel fuel to stop s) as [s1 E]; [done|unfold len in *; lia| | |].
      - destruct order; simpl in *; lia.
      - destruct order; simpl in *; lia.
      - rewrite Hex in E. rewrite E. simpl. eauto. }
    exists s'. split; [done|]. apply solve_with_ok in E as (Q1 & _ & Q3 & Q4); [|apply pget_good|done].
    rewrite Hex in Q4. unfold most. destruct order; simpl in *; lia.
  Qed.
  Lemma locate_total fuel s N : inv s -> lookup_ok N -> most N s < Z.of_nat fuel ->
    exists s1 i, locate step conv max_N exact_order (fun s N => pget fuel s (Some N)) fuel s N = Ok (s1, Z.of_nat i, i) /\
      inv s1 /\ len s1 <= most N s /\ (i < length (bun s1))%nat.
  Proof.
    intros Hs HN Hf. set (get := fun s N => pget fuel s (Some N)). pose proof (len_pos s Hs) as Hpos.
    assert (forall s1 n, inv s1 -> 0 <= n < len s1 -> idx s1 n = Ok (Z.to_nat n)) as Hidx.
    { intros s1 n Hs1 Hn. apply idx_eq; unfold len in *; lia. }
    unfold locate. destruct N as [n|].
    - change (Ok (s, ?a) ≫= ?k) with (k (s, a)). cbv beta iota. set (n' := if decide (n < 0) then len s + n else n).
      assert (0 <= n' <= Z.max n (len s - 1)) as Hn' by (unfold n'; simpl in HN; destruct (decide (n < 0)); lia).
      destruct (decide (n' < len s)) as [Hlt|Hge].
      + simpl. rewrite Hidx by (done || lia). simpl. exists s, (Z.to_nat n'). rewrite Z2Nat.id by lia.
        split_and!; [done|done|unfold most; lia|unfold len in *; lia].
      + assert (n' = n) as Hnn by (unfold n' in *; destruct (decide (n < 0)); lia). clearbody n'. subst n'.
        destruct (solve_total fuel s (Some n) Hs Hf) as (s1 & E & Hl). fold get in E. rewrite E. simpl.
        apply solve_with_ok in E as (Q1 & _ & Q3 & Q4); [|apply pget_good|done]. rewrite Hex in Q4. simpl in Q4.
        rewrite Hidx by (done || lia). simpl. exists s1, (Z.to_nat n). rewrite Z2Nat.id by lia.
        split_and!; [done|done|done|unfold len in *; lia].
    - assert (exists s1, (if decide (len s = 1) then solve_with step conv max_N exact_order get fuel s None else Ok s) = Ok s1
        /\ inv s1 /\ len s1 <= most None s) as (s1 & E & Hs1 & Hl).
      { destruct (decide _); [|exists s; split_and!; [done|done|unfold most; lia]].
        destruct (solve_total fuel s None Hs Hf) as (s1 & E & Hl). exists s1. split_and!; [done| |done].
        apply solve_with_ok in E as (Q1 & _); [done|apply pget_good|done]. }
      rewrite E. change (Ok s1 ≫= ?k) with (k s1). cbv beta iota. change (Ok (s1, ?a) ≫= ?k) with (k (s1, a)). cbv beta iota.
      pose proof (len_pos s1 Hs1) as Hpos1.
      rewrite decide_True by lia. simpl. rewrite Hidx by (done || lia). simpl.
      exists s1, (Z.to_nat (len s1 - 1)). rewrite Z2Nat.id by lia. split_and!; [done|done|done|unfold len in *; lia].
  Qed.
  Lemma pget_some fuel s N : inv s -> lookup_ok N -> most N s + 1 < Z.of_nat fuel ->
    exists s' v, pget fuel s N = Ok (s', v) /\ len s' <= most N s.
  Proof.
    intros Hs HN Hf. destruct fuel as [|fuel]; [unfold most, len in *; lia|]. cbn [SolModel.pget].
    destruct (locate_total fuel s N Hs HN) as (s1 & i & E & Hs1 & Hl & Hi); [lia|]. rewrite E. simpl.
    destruct (pget_total (Datatypes.S fuel) s1 (Z.of_nat i) i) as (s' & v & E2); [done|done|unfold len in *; lia|by left|].
    pose proof (pget_ok _ s1 _ s' v Hs1 E2) as (_ & _ & _ & _ & Q). destruct (Q i Hi) as (_ & Hl' & _); [by left|].
    exists s', v. split; [|lia]. cbn [SolModel.pget] in E2.
    rewrite <- E2. unfold locate. pose proof (len_pos s1 Hs1) as Hpos.
    change (Ok (s1, ?a) ≫= ?k) with (k (s1, a)). cbv beta iota. rewrite (decide_False (P := Z.of_nat i < 0)) by lia.
    rewrite decide_True by (unfold len; lia). simpl. rewrite (idx_eq s1 (Z.of_nat i) i) by (done || by left). simpl. done.
  Qed.
  Definition asks (o : op (R := R) (D := D)) : option Z :=
    match o with Solve N | Pert N | Driven _ N | Coupling _ _ N => N end.
  Lemma exec_some fuel s o : inv s -> op_ok o -> most (asks o) s + 1 < Z.of_nat fuel ->
    exists s' a, exec step conv full couple max_N exact_order fuel s o = Ok (s', a) /\ len s' <= most (asks o) s.
  Proof.
    intros Hs Ho Hf. pose proof (len_pos s Hs) as Hpos. destruct o as [order|N|r N|d r N]; simpl in *.
    - destruct (solve_total fuel s order Hs) as (s' & E & Hl); [lia|]. unfold SolModel.solve. rewrite E. simpl. eauto.
    - destruct (pget_some fuel s N Hs Ho Hf) as (s' & v & E & Hl). rewrite E. simpl. eauto.
    - unfold SolModel.dget. destruct (locate_total fuel s N Hs Ho) as (s1 & i & E & Hs1 & Hl & Hi); [lia|]. rewrite E.
      change (Ok (s1, Z.of_nat i, i) ≫= ?k) with (k (s1, Z.of_nat i, i)). cbv beta iota.
      destruct ((e_read <$> bun s1 !! i) ≫= _) as [t|]; [simpl; eauto|]. pose proof (len_pos s1 Hs1) as Hpos1.
      assert (exists j, (j < length (bun s1))%nat /\ (Z.of_nat i - 1 = Z.of_nat j \/ Z.of_nat i - 1 = Z.of_nat j - len s1 \/ Z.of_nat i - 1 = Z.of_nat j - 2 * len s1)) as (j & Hj & Hij).
      { destruct i as [|i]; [exists (length (bun s1) - 1)%nat; unfold len in *; lia|exists i; lia]. }
      destruct (pget_total fuel s1 (Z.of_nat i - 1) j) as (s2 & v & E2); [done|done|unfold len in *; lia|done|].
      pose proof (pget_ok _ s1 _ s2 v Hs1 E2) as (_ & _ & _ & _ & Q). destruct (Q j Hj Hij) as (_ & Hl' & _).
      rewrite E2. simpl. eexists _, _. split; [done|]. unfold len in *. simpl. rewrite alter_length. lia.
    - unfold SolModel.cget. set (A := match N with None => _ | Some _ => _ end).
      assert (exists s1 k, A = Ok (s1, k) /\ inv s1 /\ len s1 <= most N s /\ 0 <= k <= Z.max (len s1) (default 0 N)) as (s1 & k & -> & Hs1 & Hl & Hk).
      { unfold A. destruct N as [n|].
        - exists s, (if decide (n <= 0) then len s + n else n). split_and!; [done|done|unfold most; lia| |];
            simpl in *; destruct (decide _); lia.
        - destruct (decide (len s = 1)) as [_|_].
          + destruct (solve_total fuel s None Hs) as (s1 & E & Hl); [lia|]. unfold SolModel.solve. rewrite E. simpl.
            apply solve_with_ok in E as (Q1 & _); [|apply pget_good|done]. pose proof (len_pos s1 Q1).
            exists s1, (len s1 - 1). split_and!; [done|done|done|lia|simpl; lia].
          + exists s, (len s - 1). split_and!; [done|done|unfold most; lia|lia|simpl; lia]. }
      simpl. destruct (_ !! (d, r)) as [c|]; [simpl; eauto|].
      assert (most (Some (k - 1)) s1 <= most N s) as Hm by (unfold most in *; simpl in *; destruct N; simpl in *; lia).
      destruct (pget_some fuel s1 (Some (k - 1)) Hs1) as (s2 & v & E2 & Hl2); [simpl; lia|lia|].
      rewrite E2. simpl. eexists _, _. split; [done|]. unfold len in *. simpl. lia.
  Qed.
  Lemma run_some os : Forall op_ok os -> exists c, forall fuel, (c <= fuel)%nat -> exists s, run fuel os (st0 init) = Ok s.
  Proof.
    intros Hos. assert (forall b, exists c, forall fuel s, (c <= fuel)%nat -> inv s -> len s <= b -> exists s', run fuel os s = Ok s') as Hgen.
    { induction Hos as [|o os Ho _ IH]; intros b; [exists 0%nat; intros; unfold SolModel.run; simpl; eauto|].
      set (b' := Z.max b (Z.max (max_N + 1) (default 0 (asks o) + 1))). destruct (IH b') as [c Hc].
      exists (Nat.max c (Z.to_nat (b' + 2))). intros fuel s Hf Hs Hb.
      assert (most (asks o) s <= b') as Hm by (unfold most, b'; lia).
      destruct (exec_some fuel s o Hs Ho) as (s1 & a & E & Hl); [lia|].
      unfold SolModel.run. simpl. rewrite E. simpl. apply Hc; [lia| |lia]. by apply exec_ok in E as (? & _). }
    destruct (Hgen (len (st0 (R := R) (D := D) (T := T) (C := C) init))) as [c Hc].
    exists c. intros fuel Hf. apply Hc; [done|apply st0_inv|done].
  Qed.
  Lemma lookup_some os N : Forall op_ok os -> lookup_ok N -> exists c, forall fuel, (c <= fuel)%nat ->
    exists s s' v, run fuel os (st0 init) = Ok s /\ pget fuel s N = Ok (s', v).
  Proof.
    intros Hos HN. destruct (run_some (os ++ [Pert N])) as [c Hc].
    { apply Forall_app. split; [done|]. by apply Forall_singleton. }
    exists c. intros fuel Hf. destruct (Hc fuel Hf) as [s2 E]. unfold SolModel.run in *. rewrite mfor_app in E.
    destruct (mfor _ os _) as [s|] eqn:E1; [|done]. simpl in E.
    destruct (pget fuel s N) as [[s' v]|] eqn:E2; [|done]. eauto 10.
  Qed.
End proofs.
