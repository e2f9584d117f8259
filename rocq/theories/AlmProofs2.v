(** Proofs about ray matrices and systems: determinants, reversal, positions. *)
From stdpp Require Import base tactics list numbers.
From Coq Require Import Reals Lra Psatz.
From Verif Require Import Fld Py Herm CohFinal SigModel AlmModel AlmSpec AlmProofs.
Local Open Scope R_scope.

(** ** the flat list *)
Lemma flat_node l : flat (Node l) = l ≫= flat.
Proof. simpl. induction l as [|c l IH]; simpl; [done|]. by rewrite IH. Qed.
Lemma prod_flats l : Forall (fun t => prod (flat t) = val (matrix t)) l -> prod (l ≫= flat) = prod l.
Proof.
  induction 1 as [|c l Hc _ IH]; [done|]. rewrite bind_cons, prod_app, IH, Hc. done.
Qed.
Lemma prod_flat t : prod (flat t) = val (matrix t).
Proof.
  induction t as [p e|L n| |l IH] using tree_ind'; [apply mmul_I_l..|]. rewrite flat_node, matrix_node. by apply prod_flats.
Qed.
Lemma prod_foldl l : foldl (fun m c => mmul (val (matrix c)) m) I2 l = prod l.
Proof.
  assert (forall m, foldl (fun m c => mmul (val (matrix c)) m) m l = mmul (prod l) m) as H.
  { induction l as [|c l IH]; intros m; simpl; [by rewrite mmul_I_l|]. by rewrite IH, mmul_assoc. }
  by rewrite H, mmul_I_r.
Qed.

(** ** determinants *)
Definition behinds (l : list tree) (n : R) : R := foldl (fun n c => behind c n) n l.
Fixpoint matcheds (l : list tree) (n : R) : Prop :=
  match l with [] => True | c :: l => matched c n /\ matcheds l (behind c n) end.
Lemma matched_node l n : matched (Node l) n <-> matcheds l n.
Proof. simpl. revert n. induction l as [|c l IH]; intros n; simpl; [done|]. by rewrite IH. Qed.
Lemma det_thin p e n : part_ok p -> matched (Thin p e) n -> n <> 0 ->
  behind (Thin p e) n <> 0 /\ det (val (part_matrix p e)) * behind (Thin p e) n = n.
Proof.
  destruct p as [|f|nf nt r|[r|]|A B C]; simpl; intros Hp Hm Hn.
  - split; [done|]. unfold det. simpl. ring.
  - split; [done|]. rewrite focus_0. unfold det. simpl. ring.
  - destruct Hp as (H1 & H2 & H3). split; [by destruct e|].
    destruct r as [r|]; [assert (r <> 0) by (by intros ->)|]; destruct e; subst; unfold det; simpl; field; repeat split; done.
  - split; [done|]. unfold det. simpl. ring.
  - split; [done|]. unfold det. simpl. ring.
  - split; [done|]. unfold det. simpl. field. done.
Qed.
Lemma det_list l : forall n, oks l -> matcheds l n -> n <> 0 ->
  Forall (fun t => forall n, tree_ok t -> matched t n -> n <> 0 -> behind t n <> 0 /\ det (val (matrix t)) * behind t n = n) l ->
  behinds l n <> 0 /\ det (prod l) * behinds l n = n.
Proof.
  induction l as [|c l IH]; intros n Hl Hm Hn HP; simpl; [rewrite det_I, Rmult_1_l; done|].
  apply Forall_cons in Hl as [Hc Hl]. apply Forall_cons in HP as [HPc HP]. destruct Hm as [Hmc Hm].
  destruct (HPc n Hc Hmc Hn) as [Hb E]. destruct (IH _ Hl Hm Hb HP) as [Hb' E']. split; [exact Hb'|].
  rewrite det_mmul. change (behinds (c :: l) n) with (behinds l (behind c n)).
  transitivity (det (val (matrix c)) * (det (prod l) * behinds l (behind c n))); [ring|]. by rewrite E'.
Qed.
Lemma det_tree t : forall n, tree_ok t -> matched t n -> n <> 0 -> behind t n <> 0 /\ det (val (matrix t)) * behind t n = n.
Proof.
  induction t as [p e|L n'| |l IH] using tree_ind'; intros n Ht Hm Hn.
  - by apply det_thin.
  - split; [done|]. unfold det. simpl. ring.
  - split; [done|]. unfold det. simpl. ring.
  - rewrite matrix_node. apply matched_node in Hm. destruct Ht as [_ Ht]. apply oks_foldr in Ht. by apply det_list.
Qed.
Lemma det_trees l n : oks l -> matcheds l n -> n <> 0 -> behinds l n <> 0 /\ det (prod l) * behinds l n = n.
Proof. intros. apply det_list; try done. apply Forall_true. intros t m. apply det_tree. Qed.
Lemma matcheds_take l : forall i n, matcheds l n -> matcheds (take i l) n.
Proof. induction l as [|c l IH]; intros [|i] n H; simpl; try done. destruct H. split; [done|]. by apply IH. Qed.
Lemma matcheds_lookup l : forall i n c, matcheds l n -> l !! i = Some c -> matched c (behinds (take i l) n).
Proof.
  induction l as [|c l IH]; intros [|i] n c' Hm Hi; simpl in *; try done.
  - injection Hi as <-. apply Hm.
  - destruct Hm as [_ Hm]. by apply (IH i _ c').
Qed.
Lemma upto_index p a : forall t n, tree_ok t -> matched t n -> n <> 0 -> valid t p a ->
  index t n p a <> 0 /\ det (upto t p a) * index t n p a = n.
Proof.
  induction p as [|i p IH]; intros t n Ht Hm Hn V.
  - destruct t as [pp e|L n'| |l]; destruct a; try done; cbn [upto index]; rewrite ?det_I, ?Rmult_1_l; try done; by apply det_tree.
  - cbn [upto index]. cbn [valid] in V. destruct t as [| | |l]; try done. destruct (l !! i) as [c|] eqn:E; [|done].
    destruct Ht as [_ Ht]. apply oks_foldr in Ht. apply matched_node in Hm.
    destruct (det_trees (take i l) n (oks_take _ _ Ht) (matcheds_take _ _ _ Hm) Hn) as [Hb Hd].
    destruct (IH c (behinds (take i l) n) (oks_lookup _ _ _ Ht E) (matcheds_lookup _ _ _ _ Hm E) Hb V) as [Hi Hd'].
    split; [exact Hi|]. change (foldl _ n (take i l)) with (behinds (take i l) n). rewrite det_mmul.
    transitivity (det (prod (take i l)) * (det (upto c p a) * index c (behinds (take i l) n) p a)); [ring|]. by rewrite Hd'.
Qed.

(** ** reversal *)
Definition J : m2 := M2 1 0 0 (-1).
Definition revof (a b : m2) : Prop := mmul b (mmul J a) = J.
Lemma JJ : mmul J J = I2. Proof. unfold mmul, J, I2. simpl. apply m2_eq; ring. Qed.
Lemma inv_comm a b : mmul a b = I2 -> mmul b a = I2.
Proof.
  intros H. assert (det a <> 0) as Hd.
  { intros E. apply (f_equal det) in H. rewrite det_mmul, E, det_I in H. lra. }
  apply (cancel_l _ _ a Hd). by rewrite mmul_assoc, H, mmul_I_l, mmul_I_r.
Qed.
Lemma revof_sym a b : revof a b -> revof b a.
Proof.
  unfold revof. intros H. assert (mmul (mmul b J) (mmul a J) = I2) as H1.
  { transitivity (mmul (mmul b (mmul J a)) J); [by rewrite !mmul_assoc|]. by rewrite H, JJ. }
  apply inv_comm in H1. apply (f_equal (fun x => mmul x J)) in H1. rewrite mmul_I_l in H1.
  rewrite <- !mmul_assoc, JJ, mmul_I_r in H1. exact H1.
Qed.
Lemma revof_mul a b a' b' : revof a b -> revof a' b' -> revof (mmul a' a) (mmul b b').
Proof.
  unfold revof. intros H H'. rewrite <- (mmul_assoc b), (mmul_assoc J), (mmul_assoc b'), H'. exact H.
Qed.
Lemma revof_I : revof I2 I2.
Proof. unfold revof. by rewrite mmul_I_l, mmul_I_r. Qed.
Lemma revof_ray a b r : revof a b -> ray b (back (ray a r)) = back r.
Proof.
  unfold revof, mmul, J, ray, back. simpl. intros [= E1 E2 E3 E4]. destruct r as [x y]. simpl. f_equal.
  - transitivity ((m00 b * (1 * m00 a + 0 * m10 a) + m01 b * (0 * m00 a + -1 * m10 a)) * x
      + (m00 b * (1 * m01 a + 0 * m11 a) + m01 b * (0 * m01 a + -1 * m11 a)) * y); [ring|]. rewrite E1, E2. ring.
  - transitivity ((m10 b * (1 * m00 a + 0 * m10 a) + m11 b * (0 * m00 a + -1 * m10 a)) * x
      + (m10 b * (1 * m01 a + 0 * m11 a) + m11 b * (0 * m01 a + -1 * m11 a)) * y); [ring|]. rewrite E3, E4. ring.
Qed.
Lemma revof_part p e : part_ok p -> (forall A B C, p <> ABCDGeneric A B C) -> revof (val (part_matrix p e)) (val (part_matrix p (negb e))).
Proof.
  intros Hp Hg. assert (forall c, revof (M2 1 0 c 1) (M2 1 0 c 1)) as H by (intros c; unfold revof, mmul, J; simpl; apply m2_eq; ring).
  destruct p as [|f|nf nt r|[r|]|A B C]; simpl; [apply H|rewrite focus_0; apply H| |apply H|apply H|by destruct (Hg A B C)].
  destruct Hp as (H1 & H2 & H3). destruct r as [r|]; [assert (r <> 0) by (by intros ->)|]; destruct e; simpl;
    unfold revof, mmul, J; cbn [m00 m01 m10 m11 val]; apply m2_eq; try ring; field; repeat split; done.
Qed.
Lemma comp_ind' (P : comp -> Prop) :
  (forall r p, P (CPart r p)) -> (forall L n, P (CSpace L n)) -> P CTarget ->
  (forall r l, Forall P l -> P (CStack r l)) -> (forall r l, Forall (fun x => P (snd x)) l -> P (CPlaced r l)) -> forall c, P c.
Proof.
  intros H1 H2 H3 H4 H5. fix IH 1. intros [r p|L n| |r l|r l]; [apply H1|apply H2|apply H3|apply H4|apply H5].
  - induction l as [|c l IHl]; constructor; [apply IH|apply IHl].
  - induction l as [|[x c] l IHl]; constructor; [apply IH|apply IHl].
Qed.
Definition W (l : list tree) : R := foldr (fun c v => width c + v) 0 l.
Lemma W_app l l' : W (l ++ l') = W l + W l'.
Proof. induction l as [|c l IH]; simpl; [ring|]. rewrite IH. ring. Qed.
Lemma W_rev l : W (rev l) = W l.
Proof. induction l as [|c l IH]; simpl; [done|]. rewrite W_app, IH. simpl. ring. Qed.

Section rev.
  Context (n0 : R).
  (** the end of a placed list, and the list behind its first element *)
  Definition fend (l : list (R * tree)) (d : R) : R := match last l with Some x => fst x + width (snd x) | None => d end.
  Lemma fill_app prev l l' : fill n0 prev (l ++ l') = fill n0 prev l ++ fill n0 (fend l prev) l'.
  Proof.
    revert prev. induction l as [|[x c] l IH]; intros prev; simpl; [done|]. rewrite IH. do 3 f_equal.
    unfold fend. rewrite last_cons. by destruct (last l).
  Qed.
  Lemma fill0_snoc l x c y d : fill0 n0 ((l ++ [(y, d)]) ++ [(x, c)]) = fill0 n0 (l ++ [(y, d)]) ++ [Sp (x - (y + width d)) n0; c].
  Proof.
    destruct l as [|[z e] l]; simpl; [done|]. rewrite fill_app. do 2 f_equal. simpl. unfold fend. by rewrite last_snoc.
  Qed.
  (** the two ways through the same components *)
  Definition twin (s t : tree) : Prop := width s = width t /\ revof (val (matrix s)) (val (matrix t)).
  Lemma stack_twin l l' : Forall2 twin l l' -> twin (Node l) (Node (rev l')).
  Proof.
    intros H. unfold twin. rewrite !matrix_node. change (width (Node ?x)) with (W x). rewrite W_rev.
    induction H as [|s t l l' [Hw Hr] _ [IHw IHr]]; simpl; [split; [done|apply revof_I]|].
    split; [by rewrite Hw, IHw|]. rewrite prod_app. simpl. rewrite mmul_I_l. by apply revof_mul.
  Qed.
  Lemma space_twin L n : n <> 0 -> twin (Sp L n) (Sp L n).
  Proof. intros Hn. split; [done|]. unfold revof, mmul, J. simpl. apply m2_eq; try ring. Qed.
  Lemma placed_twin l l' : n0 <> 0 -> Forall2 (fun x y => twin (snd x) (snd y) /\ fst y = - width (snd x) - fst x) l l' ->
    twin (Node (fill0 n0 l)) (Node (fill0 n0 (rev l'))).
  Proof.
    intros Hn H. assert (exists k, Forall2 twin (fill0 n0 l) k /\ rev k = fill0 n0 (rev l')) as (k & Hk & <-); [|exact (stack_twin _ _ Hk)].
    induction H as [|[x s] [y t] l l' [Ht Hy] Hl (k & Hk & E)]; [exists []; split; [constructor|reflexivity]|]. simpl in Ht, Hy.
    destruct Hl as [|[x2 s2] [y2 t2] l l' [Ht2 Hy2] Hl].
    - exists [t]. split; [simpl; constructor; [done|constructor]|reflexivity].
    - simpl in Ht2, Hy2. exists (t :: Sp (x2 - (x + width s)) n0 :: k). split.
      + simpl. constructor; [done|]. constructor; [by apply space_twin|]. exact Hk.
      + cbn [rev] in E |- *. rewrite fill0_snoc, <- E, <- app_assoc. simpl. do 3 f_equal.
        destruct Ht as [Hw _], Ht2 as [Hw2 _]. rewrite Hy, Hy2, <- Hw2. ring.
  Qed.
  Lemma twin_sym s t : twin s t -> twin t s.
  Proof. intros [H1 H2]. split; [done|]. by apply revof_sym. Qed.
  Lemma build_twin c : n0 <> 0 -> comp_ok c -> no_generic c -> forall env, twin (build n0 env c) (build n0 (negb env) c).
  Proof.
    intros Hn. induction c as [r p|L n| |r l IH|r l IH] using comp_ind'; intros Ho Hg env; cbn [build].
    - split; [done|]. simpl. rewrite <- negb_xorb_l. apply revof_part; [done|]. intros A B C ->. done.
    - by apply space_twin.
    - split; [done|]. simpl. change (M2 1 0 0 1) with I2. apply revof_I.
    - rewrite <- negb_xorb_l. generalize (xorb env r). destruct Ho as [_ Ho].
      assert (forall e, Forall2 twin (map (build n0 e) l) (map (build n0 (negb e)) l)) as H.
      { intros e. simpl in Hg. clear -IH Ho Hg. induction l as [|c l IHl]; simpl; [constructor|].
        apply Forall_cons in IH as [IHc IH]. destruct Ho as [Hoc Ho], Hg as [Hgc Hg]. constructor; [by apply IHc|by apply IHl]. }
      intros [|]; simpl; [apply twin_sym|]; apply stack_twin; apply (H false) || idtac.
    - rewrite <- negb_xorb_l. generalize (xorb env r). destruct Ho as [_ Ho].
      assert (Forall2 (fun x y => twin (snd x) (snd y) /\ fst y = - width (snd x) - fst x)
        (map (fun x => (fst x, build n0 false (snd x))) l) (map (fun x => (- width (build n0 true (snd x)) - fst x, build n0 true (snd x))) l)) as H.
      { simpl in Hg. clear -IH Ho Hg. induction l as [|[x c] l IHl]; simpl; [constructor|].
        apply Forall_cons in IH as [IHc IH]. destruct Ho as [Hoc Ho], Hg as [Hgc Hg]. simpl in IHc, Hoc, Hgc.
        pose proof (IHc Hoc Hgc false) as T. constructor; [|by apply IHl]. simpl. split; [exact T|]. destruct T as [Ew _]. simpl in Ew. by rewrite Ew. }
      intros [|]; simpl; [apply twin_sym|]; by apply placed_twin.
  Qed.
  Lemma build_ok c : n0 <> 0 -> comp_ok c -> forall env, tree_ok (build n0 env c).
  Proof.
    intros Hn. induction c as [r p|L n| |r l IH|r l IH] using comp_ind'; intros Ho env; cbn [build]; try done.
    - destruct Ho as [Hne Ho]. generalize (xorb env r). intros e. split.
      + destruct l as [|c l]; [done|]. destruct e; simpl; [|done]. intros E. by apply app_nil in E as [_ E].
      + apply oks_foldr. unfold oks. assert (Forall tree_ok (map (build n0 e) l)) as H.
        { clear Hne. induction l as [|c l IHl]; simpl; [constructor|]. apply Forall_cons in IH as [IHc IH]. destruct Ho as [Hoc Ho]. constructor; [by apply IHc|by apply IHl]. }
        destruct e; [|done]. by apply Forall_rev.
    - destruct Ho as [Hne Ho]. generalize (xorb env r). intros e.
      set (cs := if e then _ else _). assert (Forall (fun x => tree_ok (snd x)) cs) as H.
      { assert (Forall (fun x : R * tree => tree_ok (snd x)) (map (fun x => (if e then - width (build n0 e (snd x)) - fst x else fst x, build n0 e (snd x))) l)) as H.
        { clear Hne cs. induction l as [|[x c] l IHl]; simpl; [constructor|]. apply Forall_cons in IH as [IHc IH]. destruct Ho as [Hoc Ho]. constructor; [by apply IHc|by apply IHl]. }
        subst cs. destruct e; [|done]. by apply Forall_rev. }
      assert (cs <> []) as Hcs.
      { subst cs. destruct l as [|c l]; [done|]. destruct e; simpl; [|done]. intros E. by apply app_nil in E as [_ E]. }
      destruct cs as [|[x t] cs]; [done|]. split; [done|]. apply oks_foldr. apply Forall_cons in H as [Ht H]. constructor; [done|].
      simpl in Ht. clear Hcs Ht. generalize (x + width t). induction cs as [|[y u] cs IHcs]; intros q; simpl; [constructor|].
      apply Forall_cons in H as [Hu H]. constructor; [done|]. constructor; [done|]. by apply IHcs.
  Qed.
End rev.
