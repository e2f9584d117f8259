(** Lemmas for GraftProps.v: names and identities. *)
From Coq Require Import Lia.
From stdpp Require Import base tactics numbers list.
From Verif Require Import Fld Py Herm NoiModel NoiProofs GraftModel GraftSpec.

Lemma elem_ind2 (P : elem -> Prop) :
  (forall u cl cs i p d b bb eb, Forall (fun x => P x.2) cs -> P (Elem u cl cs i p d b bb eb)) -> forall e, P e.
Proof.
  intros H. fix IH 1. intros [u cl cs i p d b bb eb]. apply H.
  induction cs as [|[n c] cs IHcs]; constructor; [apply IH|exact IHcs].
Qed.
Lemma ctor_ind2 (P : ctor -> Prop) : (forall cls own, Forall (fun x => P x.2) own -> P (Ctor cls own)) -> forall c, P c.
Proof.
  intros H. fix IH 1. intros [cls own]. apply H. induction own as [|[n c] own IHo]; constructor; [apply IH|exact IHo].
Qed.
(** *** strings *)
Lemma has_dot_plain n : has_dot n = false <-> plain n.
Proof.
  unfold has_dot, plain. induction n as [|c n IH]; cbn [existsb]; [split; [intros _ H; inversion H|done]|].
  rewrite orb_false_iff, IH, not_elem_of_cons, Nat.eqb_neq. done.
Qed.
Lemma has_dot_true n : has_dot n = true <-> ~ plain n.
Proof. rewrite <- has_dot_plain. destruct (has_dot n); split; done. Qed.
Lemma split_plain n : plain n -> split_dot n = [n].
Proof.
  induction n as [|c n IH]; intros Hp; [done|]. apply not_elem_of_cons in Hp as [H1 H2]. cbn [split_dot]. rewrite (proj2 (Nat.eqb_neq c 46)) by lia. by rewrite IH.
Qed.
Lemma split_app n s : plain n -> split_dot (n ++ 46 :: s) = n :: split_dot s.
Proof.
  induction n as [|c n IH]; intros Hp; cbn [app split_dot]; [done|]. apply not_elem_of_cons in Hp as [H1 H2]. rewrite (proj2 (Nat.eqb_neq c 46)) by lia. by rewrite IH.
Qed.
Lemma split_join p : p <> [] -> Forall plain p -> split_dot (join_dot p) = p.
Proof.
  intros Hp Hf. induction p as [|n p IH]; [done|]. apply Forall_cons in Hf as [H1 H2]. destruct p as [|m p]; [by apply split_plain|].
  change (join_dot (n :: m :: p)) with (n ++ 46 :: join_dot (m :: p)). rewrite split_app by done. by rewrite IH.
Qed.
Lemma join_dotted p : 2 <= length p -> ~ plain (join_dot p).
Proof. destruct p as [|n [|m p]]; simpl; [lia|lia|]. intros _ H. apply H. rewrite elem_of_app, elem_of_cons. auto. Qed.

(** *** trees *)
Fixpoint uids (e : elem) : list nat :=
  let '(Elem u _ cs _ _ _ _ _ _) := e in
  u :: (fix go (cs : list (name * elem)) : list nat := match cs with [] => [] | (_, c) :: cs => uids c ++ go cs end) cs.
Definition uids_of (cs : list (name * elem)) : list nat := cs ≫= fun x => uids x.2.
Lemma uids_eq e : uids e = e_uid e :: uids_of (e_children e).
Proof.
  destruct e as [u cl cs i p d b bb eb]. cbn [uids e_uid e_children]. f_equal. unfold uids_of. induction cs as [|[n c] cs IH]; [done|]. cbn [mbind list_bind snd]. f_equal. exact IH.
Qed.
Inductive wf : elem -> Prop :=
| Wf e : NoDup (e_children e).*1 -> Forall plain (e_children e).*1 -> (forall n c, child n e = Some c -> wf c) -> wf e.
Lemma wf_inv e : wf e -> NoDup (e_children e).*1 /\ Forall plain (e_children e).*1 /\ (forall n c, child n e = Some c -> wf c).
Proof. by intros [? ? ? ?]. Qed.
Definition ok (next : nat) (e : elem) : Prop := wf e /\ NoDup (uids e) /\ forall u, u ∈ uids e -> u < next.
Definition step (next : nat) (e : elem) (next' : nat) (e' : elem) : Prop :=
  ok next e -> ok next' e' /\ next <= next' /\ forall u, u ∈ uids e' -> u ∈ uids e \/ next <= u.
Lemma step_refl next e : step next e next e.
Proof. intros Ho. split; [done|]. split; [lia|]. auto. Qed.
Lemma step_trans n1 e1 n2 e2 n3 e3 : step n1 e1 n2 e2 -> step n2 e2 n3 e3 -> step n1 e1 n3 e3.
Proof.
  intros S1 S2 O1. destruct (S1 O1) as (O2 & L1 & U1). destruct (S2 O2) as (O3 & L2 & U2). split; [done|]. split; [lia|].
  intros u Hu. destruct (U2 u Hu) as [Hu2|Hu2]; [|right; lia]. auto.
Qed.
(** changes that touch neither children nor identity *)
Lemma step_same next e e' : e_uid e' = e_uid e -> e_children e' = e_children e -> step next e next e'.
Proof.
  intros Hu Hc (W & N & L). assert (E : uids e' = uids e) by (by rewrite !uids_eq, Hu, Hc). split; [|split; [lia|rewrite E; auto]]. split; [|by rewrite E].
  destruct (wf_inv _ W) as (W1 & W2 & W3). constructor; [by rewrite Hc|by rewrite Hc|]. intros n c. unfold child. rewrite Hc. apply W3.
Qed.
Lemma children_put n c e : e_children (put_child n c e) = dict_set n c (e_children e).
Proof. by destruct e. Qed.
Lemma uid_put n c e : e_uid (put_child n c e) = e_uid e.
Proof. by destruct e. Qed.
Lemma child_put n c e m : child m (put_child n c e) = if decide (n = m) then Some c else child m e.
Proof. unfold child. rewrite children_put. apply dict_get_set. Qed.
Lemma uids_of_set_new n c cs : dict_get n cs = None -> uids_of (dict_set n c cs) = uids_of cs ++ uids c.
Proof.
  induction cs as [|[m d] cs IH]; cbn [dict_get dict_set]; [intros _; unfold uids_of; cbn; by rewrite app_nil_r|]. destruct (decide (m = n)); [done|]. intros Hn.
  unfold uids_of in *. cbn [mbind list_bind snd]. by rewrite IH, app_assoc.
Qed.
Lemma uids_of_split n c cs : dict_get n cs = Some c -> exists l1 l2, (uids_of cs = l1 ++ uids c ++ l2) /\ forall c', uids_of (dict_set n c' cs) = l1 ++ uids c' ++ l2.
Proof.
  induction cs as [|[m d] cs IH]; cbn [dict_get dict_set]; [done|]. destruct (decide (m = n)) as [->|Hne].
  - intros [= ->]. exists [], (uids_of cs). split; [done|]. intros c'. done.
  - intros Hn. destruct (IH Hn) as (l1 & l2 & E1 & E2). exists (uids d ++ l1), l2. unfold uids_of in *. cbn [mbind list_bind snd]. rewrite E1. split; [by rewrite app_assoc|].
    intros c'. by rewrite E2, app_assoc.
Qed.
Lemma wf_put n c e : wf e -> wf c -> plain n -> wf (put_child n c e).
Proof.
  intros W Wc Hn. destruct (wf_inv _ W) as (W1 & W2 & W3). constructor.
  - rewrite children_put. by apply dict_set_nodup.
  - rewrite children_put. apply Forall_forall. intros x Hx. apply dict_set_keys in Hx as [->|Hx]; [done|]. by eapply Forall_forall in W2.
  - intros m c'. rewrite child_put. destruct (decide (n = m)); [by intros [= <-]|apply W3].
Qed.
Lemma wf_child n c e : wf e -> child n e = Some c -> wf c /\ plain n.
Proof.
  intros W Hc. destruct (wf_inv _ W) as (W1 & W2 & W3). split; [by eapply W3|]. eapply Forall_forall in W2; [done|]. apply elem_of_list_fmap. exists (n, c). split; [done|]. by apply dict_get_in.
Qed.
Lemma ok_child next n c e : ok next e -> child n e = Some c -> ok next c.
Proof.
  intros (W & N & L) Hc. destruct (uids_of_split n c (e_children e) Hc) as (l1 & l2 & E & _). rewrite uids_eq, E in N, L.
  split; [exact (proj1 (wf_child _ _ _ W Hc))|]. split.
  - apply NoDup_cons in N as [_ N]. apply NoDup_app in N as (_ & _ & N). by apply NoDup_app in N as (N & _ & _).
  - intros u Hu. apply L. rewrite elem_of_cons, !elem_of_app. auto.
Qed.
(** replacing a child by what it became *)
Lemma step_child next next' n c c' e : child n e = Some c -> step next c next' c' -> step next e next' (put_child n c' e).
Proof.
  intros Hc S (W & N & L). destruct (S (ok_child _ _ _ _ (conj W (conj N L)) Hc)) as ((Wc & Nc & Lc) & Hle & Hu).
  destruct (uids_of_split n c (e_children e) Hc) as (l1 & l2 & E1 & E2). pose proof (E2 c') as E2'.
  assert (U : uids (put_child n c' e) = e_uid e :: l1 ++ uids c' ++ l2) by (by rewrite uids_eq, children_put, uid_put, E2').
  rewrite uids_eq, E1 in N, L. split; [|split; [done|]].
  - split; [apply wf_put; [done|done|exact (proj2 (wf_child _ _ _ W Hc))]|]. rewrite U. split.
    + apply NoDup_cons in N as [N1 N]. apply NoDup_app in N as (N2 & N3 & N). apply NoDup_app in N as (N4 & N5 & N6).
      apply NoDup_cons. split.
      * rewrite !elem_of_app. intros [H|[H|H]]; [apply N1; rewrite !elem_of_app; auto| |apply N1; rewrite !elem_of_app; auto].
        destruct (Hu _ H) as [H'|H']; [apply N1; rewrite !elem_of_app; auto|]. specialize (L (e_uid e)). rewrite elem_of_cons in L. specialize (L (or_introl eq_refl)). lia.
      * apply NoDup_app. split; [done|]. split; [|apply NoDup_app; split; [done|split; [|done]]].
        -- intros x Hx. rewrite elem_of_app. intros [H|H].
           ++ destruct (Hu _ H) as [H'|H']; [apply (N3 x Hx); rewrite elem_of_app; auto|]. assert (x < next) by (apply L; rewrite elem_of_cons, !elem_of_app; auto). lia.
           ++ apply (N3 x Hx). rewrite elem_of_app. auto.
        -- intros x Hx Hx2. destruct (Hu _ Hx) as [H'|H']; [by apply (N5 x H')|]. assert (x < next) by (apply L; rewrite elem_of_cons, !elem_of_app; auto). lia.
    + intros u. rewrite elem_of_cons, !elem_of_app. intros [->|[H|[H|H]]]; [|assert (u < next) by (apply L; rewrite elem_of_cons, !elem_of_app; auto); lia|by apply Lc|assert (u < next) by (apply L; rewrite elem_of_cons, !elem_of_app; auto); lia].
      assert (e_uid e < next) by (apply L; rewrite elem_of_cons; auto). lia.
  - intros u. rewrite U, (uids_eq e), E1, !elem_of_cons, !elem_of_app. intros [->|[H|[H|H]]]; auto. destruct (Hu u H); auto.
Qed.
(** a new child *)
Lemma step_new next next' n c e : plain n -> wf c -> NoDup (uids c) -> (forall u, u ∈ uids c -> next <= u < next') -> next <= next' -> step next e next' (put_child n c e).
Proof.
  intros Hn Wc Nc Lc Hle (W & N & L). destruct (child n e) as [c0|] eqn:Hc.
  - destruct (uids_of_split n c0 (e_children e) Hc) as (l1 & l2 & E1 & E2). pose proof (E2 c) as E2'.
    assert (U : uids (put_child n c e) = e_uid e :: l1 ++ uids c ++ l2) by (by rewrite uids_eq, children_put, uid_put, E2').
    rewrite uids_eq, E1 in N, L. split; [|split; [done|]].
    + split; [by apply wf_put|]. rewrite U. split.
      * apply NoDup_cons in N as [N1 N]. apply NoDup_app in N as (N2 & N3 & N). apply NoDup_app in N as (N4 & N5 & N6).
        apply NoDup_cons. split.
        { rewrite !elem_of_app. intros [H|[H|H]]; [apply N1; rewrite !elem_of_app; auto| |apply N1; rewrite !elem_of_app; auto].
          apply Lc in H. assert (e_uid e < next) by (apply L; rewrite elem_of_cons; auto). lia. }
        apply NoDup_app. split; [done|]. split; [|apply NoDup_app; split; [done|split; [|done]]].
        { intros x Hx. rewrite elem_of_app. intros [H|H].
          - apply Lc in H. assert (x < next) by (apply L; rewrite elem_of_cons, !elem_of_app; auto). lia.
          - apply (N3 x Hx). rewrite elem_of_app. auto. }
        intros x Hx Hx2. apply Lc in Hx. assert (x < next) by (apply L; rewrite elem_of_cons, !elem_of_app; auto). lia.
      * intros u. rewrite elem_of_cons, !elem_of_app. intros [->|[H|[H|H]]]; [|assert (u < next) by (apply L; rewrite elem_of_cons, !elem_of_app; auto); lia|by apply Lc|assert (u < next) by (apply L; rewrite elem_of_cons, !elem_of_app; auto); lia].
        assert (e_uid e < next) by (apply L; rewrite elem_of_cons; auto). lia.
    + intros u. rewrite U, (uids_eq e), E1, !elem_of_cons, !elem_of_app. intros [->|[H|[H|H]]]; auto. apply Lc in H. right. lia.
  - pose proof (uids_of_set_new n c (e_children e) Hc) as E.
    assert (U : uids (put_child n c e) = uids e ++ uids c) by (by rewrite (uids_eq (put_child n c e)), (uids_eq e), children_put, uid_put, E).
    split; [|split; [done|]].
    + split; [by apply wf_put|]. rewrite U. split.
      * apply NoDup_app. split; [done|]. split; [|done]. intros x Hx Hx2. apply L in Hx. apply Lc in Hx2. lia.
      * intros u. rewrite elem_of_app. intros [H|H]; [apply L in H; lia|by apply Lc].
    + intros u. rewrite U, elem_of_app. intros [H|H]; [auto|]. apply Lc in H. right. lia.
Qed.

(** *** construction *)
Definition fresh (next next' : nat) (e : elem) : Prop := wf e /\ NoDup (uids e) /\ (forall u, u ∈ uids e -> next <= u < next') /\ next <= next'.
Definition own_loop (pre : option elem) := fix go (own : list (name * ctor)) (e : elem) (next : nat) : elem * nat * option exn :=
     match own with
     | [] => (e, next, None)
     | (n, c') :: own =>
         if has_dot n then (e, next, Some RuntimeError)
         else let '(ch, next, ex) := construct c' (pre ≫= child n) next in
              let e := put_child n ch e in
              match ex with Some x => (e, next, Some x) | None => go own e next end
     end.
Lemma construct_eq cls own pre next :
  construct (Ctor cls own) pre next = own_loop pre own (Elem next cls [] [] (default [] (e_inserted <$> pre)) None None true []) (S next).
Proof. done. Qed.
Lemma construct_fresh c : forall pre next e next' ex, construct c pre next = (e, next', ex) -> fresh next next' e.
Proof.
  induction c as [cls own IH] using ctor_ind2. intros pre next e next' ex. rewrite construct_eq.
  set (e0 := Elem next cls [] [] (default [] (e_inserted <$> pre)) None None true []).
  assert (G : forall own, Forall (fun x => forall pre next e next' ex, construct x.2 pre next = (e, next', ex) -> fresh next next' e) own ->
    forall e1 n1 e2 n2 ex2, own_loop pre own e1 n1 = (e2, n2, ex2) -> step n1 e1 n2 e2).
  { clear. induction 1 as [|[n c] own Hc _ IH]; intros e1 n1 e2 n2 ex2; cbn [own_loop].
    - intros [= <- <- <-]. apply step_refl.
    - destruct (has_dot n) eqn:Hd; [intros [= <- <- <-]; apply step_refl|]. apply has_dot_plain in Hd. cbn in Hc.
      destruct (construct c (pre ≫= child n) n1) as [[ch n3] ex3] eqn:Ec. apply Hc in Ec as (F1 & F2 & F3 & F4).
      assert (S : step n1 e1 n3 (put_child n ch e1)) by (by apply step_new).
      destruct ex3; [intros [= <- <- <-]; done|]. intros E. eapply step_trans; [exact S|]. by eapply IH. }
  intros E. apply G in E; [|exact IH].
  assert (O : ok (S next) e0).
  { split; [constructor; cbn; [apply NoDup_nil_2|constructor|done]|]. rewrite uids_eq. cbn. split; [apply NoDup_singleton|]. intros u Hu. apply elem_of_list_singleton in Hu. lia. }
  destruct (E O) as ((W & N & L) & Hle & Hu). split; [done|]. split; [done|]. split; [|lia].
  intros u Hin. split; [|by apply L]. destruct (Hu u Hin) as [H|H]; [|lia]. rewrite uids_eq in H. cbn in H. apply elem_of_list_singleton in H. lia.
Qed.
Lemma insert_step bld pre n c e next e' next' ex : insert bld pre n c e next = (e', next', ex) -> step next e next' e'.
Proof.
  unfold insert. set (e1 := if bld then e else _). assert (S1 : step next e next e1). { apply step_same; unfold e1; destruct bld, e; done. }
  destruct (has_dot n) eqn:Hd; [intros [= <- <- <-]; done|]. apply has_dot_plain in Hd.
  destruct (construct c (pre ≫= child n) next) as [[ch n3] ex3] eqn:Ec. apply construct_fresh in Ec as (F1 & F2 & F3 & F4).
  intros [= <- <- <-]. eapply step_trans; [exact S1|]. by apply step_new.
Qed.
Lemma pending_step bld pre todo : forall e next epoch e' next' epoch' ex, insert_pending bld pre todo e next epoch = (e', next', epoch', ex) -> step next e next' e'.
Proof.
  induction todo as [|[n c] todo IH]; intros e next epoch e' next' epoch' ex; cbn [insert_pending].
  - intros [= <- <- <- <-]. apply step_same; by destruct e.
  - set (e1 := set_pending (rev todo) e). assert (S1 : step next e next e1) by (apply step_same; by destruct e).
    destruct (child n e1); [intros E; eapply step_trans; [exact S1|by eapply IH]|].
    set (e2 := set_inserted _ e1). assert (S2 : step next e1 next e2) by (apply step_same; by destruct e).
    destruct (insert bld pre n c e2 next) as [[e3 n3] ex3] eqn:Ei. apply insert_step in Ei.
    assert (S3 : step next e n3 e3) by (eapply step_trans; [exact S1|]; eapply step_trans; [exact S2|exact Ei]).
    destruct ex3; [intros [= <- <- <- <-]; exact S3|]. intros E. eapply step_trans; [exact S3|by eapply IH].
Qed.
Definition complete_list (fuel : nat) (bld : bool) (pre : option elem) := fix go (cs : list (name * elem)) (next epoch : nat) : list (name * elem) * nat * nat * option exn :=
  match cs with
  | [] => ([], next, epoch, None)
  | (n, c) :: cs =>
      let '(c, next, epoch, ex) := complete fuel bld (pre ≫= child n) c next epoch in
      match ex with
      | Some x => ((n, c) :: cs, next, epoch, Some x)
      | None => let '(cs, next, epoch, ex) := go cs next epoch in ((n, c) :: cs, next, epoch, ex)
      end
  end.
Lemma complete_eq fuel bld pre e next epoch : complete (S fuel) bld pre e next epoch =
      if decide (e_done e = Some epoch) then (e, next, epoch, None)
      else
        let '(e, next, epoch, ex) := insert_pending bld pre (rev (e_pending e)) (set_done (Some epoch) e) next epoch in
        match ex with
        | Some x => (e, next, epoch, Some x)
        | None =>
            let '(cs, next, epoch, ex) := complete_list fuel bld pre (e_children e) next epoch in
            let e := set_children cs e in
            match ex with Some x => (e, next, epoch, Some x) | None => (carry_bonds pre e, next, epoch, None) end
        end.
Proof. done. Qed.
Lemma dict_set_mid (pf cs : list (name * elem)) n c c' : n ∉ pf.*1 -> dict_set n c' (pf ++ (n, c) :: cs) = pf ++ (n, c') :: cs.
Proof.
  induction pf as [|[m d] pf IH]; cbn [app dict_set fmap list_fmap fst]; intros Hn.
  - destruct (decide (n = n)); [|done]. done.
  - apply not_elem_of_cons in Hn as [H1 H2]. destruct (decide (m = n)); [congruence|]. by rewrite IH.
Qed.
Lemma dict_get_mid (pf cs : list (name * elem)) n c : n ∉ pf.*1 -> dict_get n (pf ++ (n, c) :: cs) = Some c.
Proof.
  induction pf as [|[m d] pf IH]; cbn [app dict_get fmap list_fmap fst]; intros Hn.
  - destruct (decide (n = n)); [|done]. done.
  - apply not_elem_of_cons in Hn as [H1 H2]. destruct (decide (m = n)); [congruence|]. by apply IH.
Qed.
Lemma put_mid e pf cs n c c' : n ∉ pf.*1 -> put_child n c' (set_children (pf ++ (n, c) :: cs) e) = set_children (pf ++ (n, c') :: cs) e.
Proof. intros Hn. destruct e. cbn. f_equal. by apply dict_set_mid. Qed.
Lemma child_mid e pf cs n c : n ∉ pf.*1 -> child n (set_children (pf ++ (n, c) :: cs) e) = Some c.
Proof. intros Hn. destruct e. cbn. by apply dict_get_mid. Qed.
Lemma set_children_same e : set_children (e_children e) e = e.
Proof. by destruct e. Qed.

Lemma complete_list_step fuel bld pre e :
  (forall pre e next epoch e' next' epoch' ex, complete fuel bld pre e next epoch = (e', next', epoch', ex) -> step next e next' e') ->
  forall cs pf next epoch cs' next' epoch' ex, NoDup (pf ++ cs).*1 -> complete_list fuel bld pre cs next epoch = (cs', next', epoch', ex) ->
  step next (set_children (pf ++ cs) e) next' (set_children (pf ++ cs') e).
Proof.
  intros IH. induction cs as [|[n c] cs IHc]; intros pf next epoch cs' next' epoch' ex Hnd; cbn [complete_list].
  - intros [= <- <- <- <-]. apply step_refl.
  - assert (Hn : n ∉ pf.*1). { rewrite fmap_app in Hnd. apply NoDup_app in Hnd as (_ & H & _). intros Hp. apply (H n Hp). left. }
    destruct (complete fuel bld (pre ≫= child n) c next epoch) as [[[c1 n1] ep1] ex1] eqn:Ec. apply IH in Ec.
    pose proof (step_child next n1 n c c1 (set_children (pf ++ (n, c) :: cs) e) (child_mid _ _ _ _ _ Hn) Ec) as S. rewrite put_mid in S by done.
    destruct ex1; [intros [= <- <- <- <-]; done|].
    destruct (complete_list fuel bld pre cs n1 ep1) as [[[cs2 n2] ep2] ex2] eqn:El. intros [= <- <- <- <-].
    eapply step_trans; [exact S|]. specialize (IHc (pf ++ [(n, c1)]) n1 ep1 cs2 n2 ep2 ex2). rewrite <- !app_assoc in IHc. apply IHc; [|done].
    rewrite fmap_app in Hnd |- *. exact Hnd.
Qed.
Lemma carry_step next pre e : step next e next (carry_bonds pre e).
Proof. apply step_same; destruct e, pre; done. Qed.
Lemma complete_step fuel bld : forall pre e next epoch e' next' epoch' ex, complete fuel bld pre e next epoch = (e', next', epoch', ex) -> step next e next' e'.
Proof.
  induction fuel as [|fuel IH]; intros pre e next epoch e' next' epoch' ex.
  - cbn [complete]. intros [= <- <- <- <-]. apply step_refl.
  - rewrite complete_eq. destruct (decide _); [intros [= <- <- <- <-]; apply step_refl|].
    destruct (insert_pending _ _ _ _ _ _) as [[[e1 n1] ep1] ex1] eqn:Ep. apply pending_step in Ep.
    assert (S0 : step next e next (set_done (Some epoch) e)) by (apply step_same; by destruct e).
    pose proof (step_trans _ _ _ _ _ _ S0 Ep) as S1. destruct ex1; [intros [= <- <- <- <-]; done|].
    destruct (complete_list _ _ _ _ _ _) as [[[cs2 n2] ep2] ex2] eqn:El. intros E.
    eapply step_trans; [exact S1|]. assert (S2 : step n1 e1 n2 (set_children cs2 e1)).
    { intros Ho. destruct (wf_inv _ (proj1 Ho)) as (W1 & _ & _). revert Ho. pose proof (complete_list_step fuel bld pre e1 IH (e_children e1) [] n1 ep1 cs2 n2 ep2 ex2 W1 El) as S.
      cbn [app] in S. rewrite set_children_same in S. exact S. }
    destruct ex2; revert E; intros [= <- <- <- <-]; [done|]. eapply step_trans; [exact S2|apply carry_step].
Qed.
Lemma walk_step bld p : forall pre e next epoch e' next' epoch' r, walk bld pre p e next epoch = (e', next', epoch', r) -> step next e next' e'.
Proof.
  induction p as [|n p IH]; intros pre e next epoch e' next' epoch' r; cbn [walk].
  - intros [= <- <- <- <-]. apply step_refl.
  - destruct (child n e) as [ch|] eqn:Hc.
    + destruct (walk _ _ _ _ _ _) as [[[ch1 n1] ep1] r1] eqn:Ew. intros [= <- <- <- <-]. eapply step_child; [done|]. by eapply IH.
    + destruct (dict_get n (e_pending e)) as [c|]; [|intros [= <- <- <- <-]; apply step_refl].
      set (e0 := set_pending _ e). assert (S0 : step next e next e0) by (apply step_same; by destruct e).
      destruct (insert bld pre n c e0 next) as [[e1 n1] ex1] eqn:Ei. apply insert_step in Ei. pose proof (step_trans _ _ _ _ _ _ S0 Ei) as S1.
      destruct ex1; [intros [= <- <- <- <-]; done|]. destruct (child n e1) as [ch|] eqn:Hc1; [|intros [= <- <- <- <-]; done].
      destruct (walk _ _ _ _ _ _) as [[[ch1 n2] ep1] r1] eqn:Ew. intros [= <- <- <- <-]. eapply step_trans; [exact S1|]. eapply step_child; [done|]. by eapply IH.
Qed.
Lemma update_step p : forall e x x' next next', at_path p e = Some x -> step next x next' x' -> step next e next' (update_at p x' e).
Proof.
  induction p as [|n p IH]; intros e x x' next next'; cbn [at_path update_at].
  - by intros [= ->].
  - destruct (child n e) as [c|] eqn:Hc; [|done]. cbn. intros Hp S. eapply step_child; [done|]. by eapply IH.
Qed.
Lemma run1_step s o : step (s_next s) (s_root s) (s_next (run1 s o)) (s_root (run1 s o)).
Proof.
  destruct o as [p n c|x|fuel|p q|p q| |]; cbn [run1]; try apply step_refl.
  - unfold insert_at. destruct (at_path p (s_root s)) as [e|] eqn:Hp; [|apply step_refl]. destruct (insert _ _ _ _ _ _) as [[e' n'] ex] eqn:Ei. apply insert_step in Ei. cbn. by eapply update_step.
  - unfold getitem. destruct (child x (s_root s)); [apply step_refl|]. destruct (walk _ _ _ _ _ _) as [[[e' n'] ep'] r] eqn:Ew. by apply walk_step in Ew.
  - unfold complete_root. destruct (complete _ _ _ _ _ _) as [[[e' n'] ep'] r] eqn:Ew. by apply complete_step in Ew.
  - unfold bond_inform. destruct (at_path p (s_root s)) as [e|] eqn:Hp; [|apply step_refl]. destruct (e_bond e); cbn; (eapply update_step; [done|]); apply step_same; by destruct e.
  - unfold ebond_inform. destruct (at_path p (s_root s)) as [e|] eqn:Hp; [|apply step_refl]. cbn; (eapply update_step; [done|]); apply step_same; by destruct e.
Qed.
Lemma run_ok os : forall s, ok (s_next s) (s_root s) -> ok (s_next (run os s)) (s_root (run os s)).
Proof. induction os as [|o os IH]; intros s Ho; [done|]. cbn [run foldl]. apply IH. by apply (run1_step s o). Qed.
Lemma start_ok c old : ok (s_next (start c old).1) (s_root (start c old).1).
Proof.
  unfold start. destruct (construct c old 0) as [[e n] ex] eqn:Ec. apply construct_fresh in Ec as (F1 & F2 & F3 & F4). cbn. split; [done|]. split; [done|]. intros u Hu. by apply F3.
Qed.
Lemma reached_ok s : reached s -> ok (s_next s) (s_root s).
Proof. intros (c & old & os & ->). apply run_ok, start_ok. Qed.
(** *** paths *)
Lemma at_path_wf p : forall e x, wf e -> at_path p e = Some x -> wf x /\ Forall plain p.
Proof.
  induction p as [|n p IH]; intros e x W; cbn [at_path]; [intros [= ->]; split; [done|constructor]|]. destruct (child n e) as [c|] eqn:Hc; [|done]. cbn. intros Hp.
  destruct (wf_child _ _ _ W Hc) as [Wc Hn]. destruct (IH c x Wc Hp). split; [done|]. by constructor.
Qed.
Lemma at_path_uid p : forall e x, at_path p e = Some x -> e_uid x ∈ uids e.
Proof.
  induction p as [|n p IH]; intros e x; cbn [at_path]; [intros [= ->]; rewrite uids_eq; left|]. destruct (child n e) as [c|] eqn:Hc; [|done]. cbn. intros Hp.
  destruct (uids_of_split n c (e_children e) Hc) as (l1 & l2 & E & _). rewrite uids_eq, E. rewrite elem_of_cons, !elem_of_app. eauto.
Qed.
Lemma uids_of_in n c cs u : dict_get n cs = Some c -> u ∈ uids c -> u ∈ uids_of cs.
Proof. intros Hc Hu. destruct (uids_of_split n c cs Hc) as (l1 & l2 & E & _). rewrite E, !elem_of_app. auto. Qed.
Lemma uids_of_disjoint n m c d cs u : NoDup (uids_of cs) -> dict_get n cs = Some c -> dict_get m cs = Some d -> n <> m -> u ∈ uids c -> u ∈ uids d -> False.
Proof.
  intros Hnd Hc Hd Hne Hu1 Hu2. induction cs as [|[k x] cs IH]; cbn [dict_get] in *; [done|]. change (uids_of ((k, x) :: cs)) with (uids x ++ uids_of cs) in Hnd. apply NoDup_app in Hnd as (N1 & N2 & N3).
  destruct (decide (k = n)) as [E1|], (decide (k = m)) as [E2|]; [congruence| | |].
  - revert Hc. intros [= ->]. apply (N2 u Hu1). by eapply uids_of_in.
  - revert Hd. intros [= ->]. apply (N2 u Hu2). by eapply uids_of_in.
  - by apply IH.
Qed.
Lemma at_path_unique p : forall q e x y, NoDup (uids e) -> at_path p e = Some x -> at_path q e = Some y -> e_uid x = e_uid y -> p = q.
Proof.
  induction p as [|n p IH]; intros [|m q] e x y Hnd; cbn [at_path].
  - done.
  - intros [= ->] Hq E. exfalso. destruct (child m x) as [c|] eqn:Hc; [|done]. cbn in Hq. apply at_path_uid in Hq. rewrite uids_eq in Hnd. apply NoDup_cons in Hnd as [H1 H2]. apply H1. rewrite E. by eapply uids_of_in.
  - intros Hp [= ->] E. exfalso. destruct (child n y) as [c|] eqn:Hc; [|done]. cbn in Hp. apply at_path_uid in Hp. rewrite uids_eq in Hnd. apply NoDup_cons in Hnd as [H1 H2]. apply H1. rewrite <- E. by eapply uids_of_in.
  - destruct (child n e) as [c|] eqn:Hc; [|done]. destruct (child m e) as [d|] eqn:Hd; [|done]. cbn. intros Hp Hq E. rewrite uids_eq in Hnd. apply NoDup_cons in Hnd as [H1 H2].
    destruct (decide (n = m)) as [->|Hne].
    + f_equal. unfold child in *. rewrite Hc in Hd. simplify_eq. eapply IH; [|done|done|done]. destruct (uids_of_split m d (e_children e) Hc) as (l1 & l2 & E1 & _). rewrite E1 in H2. apply NoDup_app in H2 as (_ & _ & H2). by apply NoDup_app in H2 as (H2 & _ & _).
    + exfalso. eapply (uids_of_disjoint n m); [exact H2|done|done|done|by eapply at_path_uid|rewrite E; by eapply at_path_uid].
Qed.
(** looking up a path that exists changes nothing *)
Lemma put_same n c e : NoDup (e_children e).*1 -> child n e = Some c -> put_child n c e = e.
Proof.
  intros _. destruct e as [u cl cs i pd d b bb eb]. unfold child, put_child. cbn. intros Hc. f_equal. revert Hc. induction cs as [|[m x] cs IH]; cbn [dict_get dict_set]; [done|]. destruct (decide (m = n)) as [->|]; [by intros [= ->]|]. intros H. by rewrite IH.
Qed.
Lemma walk_there bld p : forall pre e x next epoch, wf e -> at_path p e = Some x -> walk bld pre p e next epoch = (e, next, epoch, Ok (e_uid x)).
Proof.
  induction p as [|n p IH]; intros pre e x next epoch W; cbn [at_path walk]; [by intros [= ->]|]. destruct (child n e) as [c|] eqn:Hc; [|done]. cbn. intros Hp.
  rewrite (IH _ c x _ _ (proj1 (wf_child _ _ _ W Hc)) Hp). rewrite put_same; [done| |done]. exact (proj1 (wf_inv _ W)).
Qed.
Lemma getitem_there s p x : ok (s_next s) (s_root s) -> p <> [] -> at_path p (s_root s) = Some x -> getitem (join_dot p) s = (s, Ok (e_uid x)).
Proof.
  intros Ho Hp Hx. pose proof Hx as Hx'. unfold getitem. destruct (at_path_wf p _ _ (proj1 Ho) Hx) as [_ Hf]. destruct p as [|n [|m p]]; [done| |].
  - cbn in Hx. cbn [join_dot]. destruct (child n (s_root s)) as [c|]; [|done]. by revert Hx; intros [= ->].
  - destruct (child (join_dot (n :: m :: p)) (s_root s)) as [c|] eqn:Hc.
    + exfalso. apply (wf_child _ _ _ (proj1 Ho)) in Hc as [_ Hc]. revert Hc. apply join_dotted. cbn. lia.
    + rewrite split_join by done. rewrite (walk_there _ _ _ _ x _ _ (proj1 Ho) Hx'). by destruct s.
Qed.
(** the effect of an update on the paths *)
Lemma at_update p : forall e x x' q, at_path p e = Some x -> at_path (p ++ q) (update_at p x' e) = at_path q x'.
Proof.
  induction p as [|n p IH]; intros e x x' q; cbn [at_path update_at app]; [done|]. destruct (child n e) as [c|] eqn:Hc; [|done]. cbn. intros Hp.
  rewrite child_put. destruct (decide (n = n)); [|done]. cbn. by eapply IH.
Qed.
(** outside the subtree the classes, identities and bonds are as before *)
Definition data (e : elem) := (e_uid e, e_cls e, e_inserted e, e_pending e, e_done e, e_bond e, e_bbonded e, e_ebonds e).
Lemma at_update_other p : forall e x x' q, at_path p e = Some x -> ~ (exists r, q = p ++ r) -> data <$> at_path q (update_at p x' e) = data <$> at_path q e.
Proof.
  induction p as [|n p IH]; intros e x x' q; cbn [at_path update_at].
  - intros _ H. destruct H. by exists q.
  - destruct (child n e) as [c|] eqn:Hc; [|done]. cbn. intros Hp Hq. destruct q as [|m q]; cbn [at_path]; [by destruct e|]. rewrite child_put. destruct (decide (n = m)) as [->|Hne]; [|done].
    rewrite Hc. cbn. eapply IH; [done|]. intros [r ->]. apply Hq. by exists r.
Qed.
Lemma at_app p q e : at_path (p ++ q) e = at_path p e ≫= at_path q.
Proof. revert e. induction p as [|n p IH]; intros e; cbn [at_path app]; [done|]. destruct (child n e); [|done]. cbn. apply IH. Qed.
