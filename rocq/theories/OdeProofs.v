(** Proofs about list-tuple expressions and the loops of the ODE coupling. *)
From stdpp Require Import base tactics list numbers gmap.
From Coq Require Import Sorting.Sorted.
From stdpp Require Import list.
From Verif Require Import Py Fld Herm OdeModel OdeSpec.

Section expr.
  Context {K : fld} {X : Type}.
  Local Open Scope fld_scope.
  Add Field FO : (f_theory K).
  Implicit Types (x : X -> K) (t u : mono K X).

  Lemma fprod_app (a b : list K) : fprod (a ++ b) = fprod a * fprod b.
  Proof. induction a as [|v a IH]; simpl; [ring|]. rewrite IH. ring. Qed.
  Lemma poly_at_app x a b : poly_at x (a ++ b) = poly_at x a + poly_at x b.
  Proof. apply fsum_app. Qed.
  Lemma poly_at_concat x l : poly_at x (concat l) = fsum (poly_at x) l.
  Proof. induction l as [|a l IH]; [done|]. simpl. rewrite poly_at_app, IH. done. Qed.
  (** induction over expressions *)
  Lemma ltup_ind' (Q : ltup K X -> Prop) : (forall t, Q (Tup t)) -> (forall l, Forall Q l -> Q (Lst l)) -> forall e, Q e.
  Proof.
    intros H1 H2. fix IH 1. intros [t|l]; [apply H1|]. apply H2.
    induction l as [|a l IHl]; constructor; [apply IH|apply IHl].
  Qed.
  Lemma fsum_map' {A B} (g : B -> K) (h : A -> B) l : fsum g (map h l) = fsum (fun a => g (h a)) l.
  Proof. induction l as [|a l IH]; simpl; [done|]. by rewrite IH. Qed.
  Lemma mult_inner_lem x t b : poly_at x (lt_mult_inner t b) = prod_at x t * expr_at x b.
  Proof.
    induction b as [u|l IH] using ltup_ind'; simpl.
    - unfold poly_at. cbn [fsum]. unfold prod_at. cbn [fst snd]. rewrite map_app, fprod_app. ring.
    - rewrite poly_at_concat, !fsum_map', <- fsum_mul_l. apply fsum_ext.
      intros a Ha. rewrite Forall_forall in IH. by apply IH.
  Qed.
  Lemma lt_mult_lem x a b : poly_at x (lt_mult a b) = expr_at x a * expr_at x b.
  Proof.
    induction a as [t|l IH] using ltup_ind'; simpl; [apply mult_inner_lem|].
    rewrite poly_at_concat, !fsum_map', <- fsum_mul_r. apply fsum_ext.
    intros a Ha. rewrite Forall_forall in IH. by apply IH.
  Qed.
End expr.

(** * sorting *)
Section sorting.
  Context {A : Type} (le : A -> A -> bool).
  Lemma ins_perm x l : ins_sorted le x l ≡ₚ x :: l.
  Proof. induction l as [|y l IH]; simpl; [done|]. destruct (le x y); [done|]. rewrite IH. constructor. Qed.
  Lemma py_sorted_perm l : py_sorted le l ≡ₚ l.
  Proof. induction l as [|x l IH]; simpl; [done|]. by rewrite ins_perm, IH. Qed.
  Context (Htot : forall a b, le a b = true \/ le b a = true) (Htr : forall a b c, le a b = true -> le b c = true -> le a c = true).
  Let R a b := le a b = true.
  Lemma ins_sorted_sorted x l : StronglySorted R l -> StronglySorted R (ins_sorted le x l).
  Proof using All.
    induction 1 as [|y l Hl IH Hy]; simpl; [repeat constructor|].
    destruct (le x y) eqn:E.
    - constructor; [by constructor|]. constructor; [done|]. eapply Forall_impl; [done|]. intros z Hz. by eapply Htr.
    - constructor; [done|]. rewrite ins_perm. constructor; [|done]. destruct (Htot x y); unfold R; congruence.
  Qed.
  Lemma py_sorted_sorted l : StronglySorted R (py_sorted le l).
  Proof using All. induction l as [|x l IH]; simpl; [constructor|by apply ins_sorted_sorted]. Qed.
End sorting.

Lemma tup_le_refl a : tup_le a a = true.
Proof. induction a as [|x a IH]; simpl; [done|]. rewrite decide_False by lia. by rewrite decide_True. Qed.
Lemma tup_le_tot a b : tup_le a b = true \/ tup_le b a = true.
Proof.
  revert b. induction a as [|x a IH]; intros [|y b]; simpl; auto.
  repeat destruct (decide _); auto; try lia; subst; auto.
Qed.
Lemma tup_le_trans a b c : tup_le a b = true -> tup_le b c = true -> tup_le a c = true.
Proof.
  revert b c. induction a as [|x a IH]; intros [|y b] [|z c]; simpl; auto; try discriminate.
  repeat destruct (decide _); auto; try lia; try discriminate. intros. by eapply IH.
Qed.
Lemma tup_le_antisym a b : tup_le a b = true -> tup_le b a = true -> a = b.
Proof.
  revert b. induction a as [|x a IH]; intros [|y b]; simpl; auto; try discriminate.
  repeat destruct (decide _); try lia; try discriminate. intros. subst. f_equal. auto.
Qed.
Lemma pair_le_tot a b : pair_le a b = true \/ pair_le b a = true.
Proof.
  unfold pair_le. destruct (decide (a.1 = b.1)) as [->|Hn].
  - rewrite decide_True by done. rewrite !bool_decide_eq_true. lia.
  - rewrite decide_False by congruence. apply tup_le_tot.
Qed.
Lemma pair_le_trans a b c : pair_le a b = true -> pair_le b c = true -> pair_le a c = true.
Proof.
  unfold pair_le. destruct a as [a i], b as [b j], c as [c k]; simpl.
  destruct (decide (a = b)) as [->|H1], (decide (b = c)) as [->|H2]; try (rewrite ?decide_False by done; done).
  - rewrite ?decide_True by done. rewrite !bool_decide_eq_true. lia.
  - intros E1 E2. destruct (decide (a = c)) as [->|]; [|by eapply tup_le_trans].
    exfalso. apply H1. by apply tup_le_antisym.
Qed.
Lemma pair_le_tup a b : pair_le a b = true -> tup_le a.1 b.1 = true.
Proof. unfold pair_le. destruct (decide _) as [->|]; [intros _; apply tup_le_refl|done]. Qed.

Section collect.
  Context {K : fld}.
  Local Open Scope fld_scope.
  Add Field FC : (f_theory K).
  Implicit Types (x : nat -> K).
  Lemma fprod_perm (a b : list K) : a ≡ₚ b -> fprod a = fprod b.
  Proof. induction 1; simpl; try congruence; ring. Qed.

  Lemma collect_val x (gain : nat -> K) l prev g :
    poly_at x (collect_from gain prev g l) = g * fprod (map x prev) + fsum (fun e => gain e.2 * fprod (map x e.1)) l.
  Proof.
    revert prev g. induction l as [|[NL idx] l IH]; intros prev g; simpl.
    - unfold poly_at. simpl. unfold prod_at. simpl. ring.
    - destruct (decide _) as [->|].
      + rewrite IH. ring.
      + unfold poly_at in *. cbn [fsum]. rewrite IH. unfold prod_at. simpl. ring.
  Qed.
  Lemma fsum_imap {A B} (f : B -> K) (h : nat -> A -> B) l :
    fsum f (imap h l) = fsum (fun e => f (h e.1 e.2)) (imap pair l).
  Proof.
    revert h. enough (forall g : nat -> nat, forall h, fsum f (imap (h ∘ g) l) = fsum (fun e => f (h e.1 e.2)) (imap (pair ∘ g) l)) as G.
    { intros h. exact (G id h). }
    induction l as [|a l IH]; intros g h; [done|]. cbn [imap fsum]. f_equal. apply (IH (g ∘ S)).
  Qed.
  Lemma sort_collect_val x (l : list (mono K nat)) : poly_at x (lt_sort_collect l) = poly_at x l.
  Proof.
    unfold lt_sort_collect. set (ks := imap (fun idx (L : K * list nat) => (py_sorted Nat.leb L.2, idx)) l).
    set (gain := fun idx : nat => match l !! idx with Some L => L.1 | None => 0 end).
    assert (fsum (fun e => gain e.2 * fprod (map x e.1)) (py_sorted pair_le ks) = poly_at x l) as <-.
    { rewrite (fsum_perm _ _ ks) by apply py_sorted_perm. unfold ks. rewrite fsum_imap. cbn [fst snd].
      transitivity (fsum (fun e => prod_at x e.2) (imap pair l)).
      - apply fsum_ext. intros [i t] Hi. apply elem_of_lookup_imap in Hi as (j & t' & [= -> ->] & Hj).
        unfold gain. cbn [fst snd].  rewrite Hj. unfold prod_at. f_equal. apply fprod_perm.
        apply Permutation_map. apply py_sorted_perm.
      - rewrite <- (fsum_imap (prod_at x) (fun _ t => t)). unfold poly_at. f_equal. apply list_eq. intros i.
        rewrite list_lookup_imap. by destruct (l !! i). }
    destruct (py_sorted pair_le ks) as [|[NL idx] r]; [done|]. rewrite collect_val. done.
  Qed.
  (** the products of the result, in strictly increasing order *)
  Lemma collect_keys (gain : nat -> K) l prev g :
    StronglySorted (fun a b => tup_le a b = true) (prev :: map fst l) ->
    StronglySorted (fun a b => tup_le a b = true /\ a <> b) (map snd (collect_from gain prev g l)) /\
    Forall (fun k => k = prev \/ k ∈ map fst l) (map snd (collect_from gain prev g l)).
  Proof.
    revert prev g. induction l as [|[NL idx] l IH]; intros prev g Hs; simpl.
    - split; [repeat constructor|]. constructor; [by left|constructor].
    - simpl in Hs. inversion Hs as [|? ? Hs' Hf]; subst. destruct (decide (prev = NL)) as [->|Hne].
      + destruct (IH NL (g + gain idx)) as [H1 H2]; [done|]. split; [done|].
        eapply Forall_impl; [done|]. set_solver.
      + destruct (IH NL (gain idx)) as [H1 H2]; [done|]. simpl. split.
        * constructor; [done|]. rewrite Forall_forall in *. intros k Hk. split.
          -- apply Hf. destruct (H2 k Hk); set_solver.
          -- intros ->. apply Hne. apply tup_le_antisym.
             ++ apply Hf. set_solver.
             ++ destruct (H2 _ Hk) as [->|Hin]; [apply tup_le_refl|].
                inversion Hs' as [|? ? ? Hf']; subst. rewrite Forall_forall in Hf'. by apply Hf'.
        * constructor; [by left|]. eapply Forall_impl; [done|]. set_solver.
  Qed.
  Lemma map_sorted {A B} (f : A -> B) (R : A -> A -> Prop) (Q : B -> B -> Prop) l :
    (forall a b, R a b -> Q (f a) (f b)) -> StronglySorted R l -> StronglySorted Q (map f l).
  Proof.
    intros H. induction 1 as [|a l Hl IH Ha]; simpl; constructor; [done|].
    rewrite Forall_forall. rewrite Forall_forall in Ha. intros b (c & -> & Hc)%elem_of_list_fmap. apply H, Ha, Hc.
  Qed.
  Lemma sort_collect_keys (l : list (mono K nat)) :
    StronglySorted (fun a b => tup_le a b = true /\ a <> b) (map snd (lt_sort_collect l)) /\
    Forall (StronglySorted le) (map snd (lt_sort_collect l)) /\
    (forall k, k ∈ map snd (lt_sort_collect l) -> exists t, t ∈ l /\ k ≡ₚ t.2).
  Proof.
    unfold lt_sort_collect. set (ks := imap (fun idx (L : K * list nat) => (py_sorted Nat.leb L.2, idx)) l).
    set (gain := fun idx : nat => match l !! idx with Some L => L.1 | None => 0 end).
    pose proof (py_sorted_perm pair_le ks) as Hp.
    pose proof (py_sorted_sorted pair_le pair_le_tot pair_le_trans ks) as Hs.
    assert (forall e, e ∈ py_sorted pair_le ks -> exists t, t ∈ l /\ e.1 = py_sorted Nat.leb t.2) as Hin.
    { intros e He. rewrite Hp in He. apply elem_of_lookup_imap in He as (i & t & -> & Hi).
      exists t. split; [by eapply elem_of_list_lookup_2|done]. }
    destruct (py_sorted pair_le ks) as [|[NL idx] r]; [split_and!; [constructor..|set_solver]|].
    pose proof (collect_keys gain r NL (gain idx)) as [H1 H2].
    { apply (map_sorted fst (fun a b => pair_le a b = true) (fun a b => tup_le a b = true) ((NL, idx) :: r)); [apply pair_le_tup|done]. }
    assert (forall k, k ∈ map snd (collect_from gain NL (gain idx) r) -> exists t, t ∈ l /\ k = py_sorted Nat.leb t.2) as Hk.
    { intros k Hk. rewrite Forall_forall in H2. destruct (H2 k Hk) as [->|Hr].
      - destruct (Hin (NL, idx)) as (t & Ht & E); [set_solver|]. by exists t.
      - apply elem_of_list_fmap in Hr as (e & -> & He). apply Hin. set_solver. }
    split_and!; [done| |].
    - rewrite Forall_forall. intros k (t & Ht & ->)%Hk.
      pose proof (py_sorted_sorted Nat.leb) as Hss. specialize (Hss ltac:(intros; rewrite !Nat.leb_le; lia) ltac:(intros ???; rewrite !Nat.leb_le; lia) t.2).
      rewrite <- (map_id (py_sorted Nat.leb t.2)). eapply map_sorted; [|exact Hss]. intros a b. by rewrite Nat.leb_le.
    - intros k (t & Ht & ->)%Hk. exists t. split; [done|apply py_sorted_perm].
  Qed.
End collect.
