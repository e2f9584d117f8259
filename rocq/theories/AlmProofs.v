(** Proofs about ray matrices and systems. *)
From stdpp Require Import base tactics list numbers.
From Coq Require Import Reals Lra Psatz.
From Verif Require Import Fld Py Herm CohFinal SigModel AlmModel AlmSpec.
Local Open Scope R_scope.

(** ** matrices *)
Lemma m2_eq a b c d a' b' c' d' : a = a' -> b = b' -> c = c' -> d = d' -> M2 a b c d = M2 a' b' c' d'.
Proof. by intros -> -> -> ->. Qed.
Ltac m2ring := unfold mmul, I2; cbn [m00 m01 m10 m11]; apply m2_eq; ring.
Lemma mmul_assoc x y z : mmul x (mmul y z) = mmul (mmul x y) z.
Proof. m2ring. Qed.
Lemma mmul_I_l x : mmul I2 x = x.
Proof. destruct x. m2ring. Qed.
Lemma mmul_I_r x : mmul x I2 = x.
Proof. destruct x. m2ring. Qed.
Lemma det_mmul x y : det (mmul x y) = det x * det y.
Proof. unfold det, mmul. simpl. ring. Qed.
Lemma det_I : det I2 = 1.
Proof. unfold det, I2. simpl. ring. Qed.
Lemma minv_l x : det x <> 0 -> mmul (minv x) x = I2.
Proof. intros H. unfold mmul, minv, I2, det in *. simpl. apply m2_eq; field; done. Qed.
Lemma minv_r x : det x <> 0 -> mmul x (minv x) = I2.
Proof. intros H. unfold mmul, minv, I2, det in *. simpl. apply m2_eq; field; done. Qed.
Lemma cancel_r a b x : det x <> 0 -> mmul a x = mmul b x -> a = b.
Proof.
  intros Hx H. rewrite <- (mmul_I_r a), <- (mmul_I_r b), <- (minv_r x Hx), !mmul_assoc, H. done.
Qed.
Lemma cancel_l a b x : det x <> 0 -> mmul x a = mmul x b -> a = b.
Proof.
  intros Hx H. rewrite <- (mmul_I_l a), <- (mmul_I_l b), <- (minv_l x Hx), <- !mmul_assoc, H. done.
Qed.

(** ** ndarrays occur only as identities *)
Definition good (a : arr) : Prop := match a with Nd m => m = I2 | Mat _ => True end.
Lemma good_eye : good eye. Proof. done. Qed.
Lemma amul_val a b : good a -> good b -> val (amul a b) = mmul (val a) (val b) /\ good (amul a b).
Proof.
  destruct a as [m|m], b as [m'|m']; simpl; intros Ha Hb; try done. subst. simpl. split; [m2ring|].
  unfold I2. apply m2_eq; ring.
Qed.
Lemma tree_ind' (P : tree -> Prop) :
  (forall p e, P (Thin p e)) -> (forall L n, P (Sp L n)) -> P Tgt ->
  (forall l, Forall P l -> P (Node l)) -> forall t, P t.
Proof.
  intros H1 H2 H3 H4. fix IH 1. intros [p e|L n| |l]; [apply H1|apply H2|apply H3|]. apply H4.
  induction l as [|c l IHl]; constructor; [apply IH|apply IHl].
Qed.
Definition oks (l : list tree) : Prop := Forall tree_ok l.
Lemma oks_foldr l : foldr (fun c P => tree_ok c /\ P) True l <-> oks l.
Proof.
  induction l as [|c l IH]; simpl; [by split; [constructor|]|]. rewrite IH. unfold oks. by rewrite Forall_cons.
Qed.
Definition prod (l : list tree) : m2 := foldr (fun c m => mmul m (val (matrix c))) I2 l.
Lemma prod_app l l' : prod (l ++ l') = mmul (prod l') (prod l).
Proof.
  induction l as [|c l IH]; simpl; [by rewrite mmul_I_r|]. by rewrite IH, mmul_assoc.
Qed.
Lemma mats_val l : forall mat, Forall (fun c => good (matrix c)) l -> good mat ->
  val (mats l mat) = mmul (prod l) (val mat) /\ good (mats l mat).
Proof.
  induction l as [|c l IH]; intros mat Hl Hm; simpl; [by rewrite mmul_I_l|].
  apply Forall_cons in Hl as [Hc Hl]. destruct (amul_val (matrix c) mat Hc Hm) as [E G].
  destruct (IH (amul (matrix c) mat) Hl G) as [E' G']. split; [|done].
  unfold mats in *. rewrite E', E, mmul_assoc. done.
Qed.
Lemma matrix_good t : good (matrix t).
Proof.
  induction t as [p e|L n| |l IH] using tree_ind'; simpl; try done.
  - destruct p as [|f|nf nt [r|]|[r|]|A B C]; simpl; try done.
    + unfold matrix_focus. destruct (Req_EM_T 0 0); done.
    + by destruct e.
    + by destruct e.
  - apply (mats_val l eye); [done|apply good_eye].
Qed.
Lemma goods l : Forall (fun c => good (matrix c)) l.
Proof. apply Forall_true. apply matrix_good. Qed.
Lemma matrix_node l : val (matrix (Node l)) = prod l.
Proof. destruct (mats_val l eye (goods l) good_eye) as [E _]. simpl. unfold mats in E. rewrite E. apply mmul_I_r. Qed.
Lemma focus_0 f : matrix_focus (Some f) 0 = Mat (M2 1 0 (-1 / f) 1).
Proof. unfold matrix_focus. by destruct (Req_EM_T 0 0). Qed.
(** ** inverses *)
Lemma part_det p e : part_ok p -> det (val (part_matrix p e)) <> 0.
Proof.
  destruct p as [|f|nf nt r|[r|]|A B C]; simpl; intros Hp.
  - unfold det. simpl. lra.
  - rewrite focus_0. unfold det. simpl. lra.
  - destruct Hp as (H1 & H2 & H3). assert (nf / nt <> 0) as E1 by (apply Rmult_integral_contrapositive_currified; [done|by apply Rinv_neq_0_compat]).
    assert (nt / nf <> 0) as E2 by (apply Rmult_integral_contrapositive_currified; [done|by apply Rinv_neq_0_compat]).
    destruct r as [r|], e; unfold det; simpl; rewrite ?Rmult_0_l, Rminus_0_r, Rmult_1_l; done.
  - unfold det. simpl. lra.
  - unfold det. simpl. lra.
  - unfold det. simpl. assert (A * ((C * B + 1) / A) - B * C = 1) as -> by (field; done). lra.
Qed.
Lemma apow_inv_mat m : det m <> 0 -> apow_inv (Mat m) = Ok (Mat (minv m)).
Proof. intros H. simpl. by destruct (Req_EM_T (det m) 0). Qed.
Lemma part_inv p e : part_ok p -> exists i, part_matrix_inv p e = Ok i /\ good i /\ mmul (val i) (val (part_matrix p e)) = I2.
Proof.
  intros Hp. pose proof (part_det p e Hp) as Hd. destruct p as [|f|nf nt r|r|A B C].
  - eexists. split; [done|]. split; [done|]. simpl. m2ring.
  - eexists. split; [done|]. rewrite focus_0. split; [done|]. simpl. rewrite focus_0. simpl in *. unfold mmul, I2. cbn [m00 m01 m10 m11 val].
    apply m2_eq; try ring. field. done.
  - eexists. split; [done|]. destruct Hp as (H1 & H2 & H3). split; [by destruct r, e|].
    destruct r as [r|]; [assert (r <> 0) by (by intros ->)|]; destruct e; simpl; unfold mmul, I2; cbn [m00 m01 m10 m11 val];
      apply m2_eq; try ring; field; repeat split; done.
  - assert (exists m, part_matrix (Mirror r) e = Mat m) as [m Em] by (destruct r; by eexists).
    rewrite Em in *. unfold part_matrix_inv. rewrite Em, apow_inv_mat by done. eexists. split; [done|]. split; [done|]. by apply minv_l.
  - unfold part_matrix_inv. simpl in *. destruct (Req_EM_T _ 0); [done|]. eexists. split; [done|]. split; [done|]. by apply minv_l.
Qed.
Lemma mats_inv_cons c l mat : mats_inv (c :: l) mat = (m ← mats_inv l mat; i ← matrix_inv c; Ok (amul i m)).
Proof. done. Qed.
Lemma mats_inv_ok l : forall mat, good mat ->
  Forall (fun c => exists i, matrix_inv c = Ok i /\ good i /\ mmul (val i) (val (matrix c)) = I2 /\ det (val (matrix c)) <> 0) l ->
  exists m, mats_inv l mat = Ok m /\ good m /\ mmul (prod l) (val m) = val mat.
Proof.
  intros mat Hm. induction l as [|c l IH]; intros Hl.
  - exists mat. split; [done|]. split; [done|]. apply mmul_I_l.
  - apply Forall_cons in Hl as [(i & Ei & Gi & Hi & Hd) Hl]. destruct (IH Hl) as (m & Em & Gm & Hm').
    rewrite mats_inv_cons, Em. cbn [mbind res_bind]. rewrite Ei. cbn [mbind res_bind prod foldr]. eexists. split; [done|].
    destruct (amul_val i m Gi Gm) as [Ev Gv]. split; [done|]. rewrite Ev, <- mmul_assoc, (mmul_assoc (val (matrix c))).
    assert (mmul (val (matrix c)) (val i) = I2) as ->.
    { apply (cancel_r _ _ (val (matrix c)) Hd). by rewrite <- mmul_assoc, Hi, mmul_I_l, mmul_I_r. }
    by rewrite mmul_I_l.
Qed.
Lemma tree_inv t : tree_ok t ->
  exists i, matrix_inv t = Ok i /\ good i /\ mmul (val i) (val (matrix t)) = I2 /\ det (val (matrix t)) <> 0.
Proof.
  induction t as [p e|L n| |l IH] using tree_ind'; simpl; intros Ht.
  - destruct (part_inv p e Ht) as (i & Ei & Gi & Hi). exists i. split; [done|]. split; [done|]. split; [done|]. by apply part_det.
  - eexists. split; [done|]. split; [done|]. split; [|unfold det; simpl; lra]. simpl. unfold mmul, I2. cbn [m00 m01 m10 m11 val].
    apply m2_eq; try ring. field. done.
  - eexists. split; [done|]. split; [done|]. split; [simpl; m2ring|unfold det; simpl; lra].
  - destruct Ht as [_ Ht]. apply oks_foldr in Ht.
    assert (Forall (fun c => exists i, matrix_inv c = Ok i /\ good i /\ mmul (val i) (val (matrix c)) = I2 /\ det (val (matrix c)) <> 0) l) as Hl.
    { apply Forall_forall. intros c Hc. rewrite Forall_forall in IH. apply (IH c Hc). unfold oks in Ht. rewrite Forall_forall in Ht. by apply Ht. }
    destruct (mats_inv_ok l eye good_eye Hl) as (m & Em & Gm & Hm). exists m. split; [exact Em|]. split; [done|].
    pose proof (matrix_node l) as E. simpl in E. rewrite E.
    assert (det (prod l) <> 0) as Hd.
    { clear -Hl. induction l as [|c l IH]; simpl; [rewrite det_I; lra|]. apply Forall_cons in Hl as [(i & _ & _ & _ & Hd) Hl].
      rewrite det_mmul. apply Rmult_integral_contrapositive_currified; [by apply IH|done]. }
    split; [|done]. apply (cancel_l _ _ (prod l) Hd). rewrite mmul_assoc, Hm. simpl. change (M2 1 0 0 1) with I2. by rewrite mmul_I_l, mmul_I_r.
Qed.
Lemma prod_det l : oks l -> det (prod l) <> 0.
Proof.
  induction 1 as [|c l Hc _ IH]; simpl; [rewrite det_I; lra|]. rewrite det_mmul.
  destruct (tree_inv c Hc) as (_ & _ & _ & _ & Hd). by apply Rmult_integral_contrapositive_currified.
Qed.
Lemma mats_inv_oks l mat : oks l -> good mat -> exists m, mats_inv l mat = Ok m /\ good m /\ mmul (prod l) (val m) = val mat.
Proof. intros Hl Hm. apply mats_inv_ok; [done|]. unfold oks in Hl. eapply Forall_impl; [exact Hl|]. apply tree_inv. Qed.
(** a system that is not empty has a matrix, not an array *)
Lemma matrix_mat t : tree_ok t -> exists m, matrix t = Mat m.
Proof.
  induction t as [p e|L n| |l IH] using tree_ind'; simpl; intros Ht.
  - destruct p as [|f|nf nt [r|]|[r|]|A B C]; simpl; try (by eexists); [rewrite focus_0; by eexists|destruct e; by eexists..].
  - by eexists.
  - by eexists.
  - destruct Ht as [Hn Ht]. apply oks_foldr in Ht. assert (exists c l0, l = l0 ++ [c]) as (c & l0 & ->).
    { destruct l as [|c0 l0] using rev_ind; [done|]. by exists c0, l0. }
    rewrite foldl_app. simpl. apply Forall_app in IH as [_ IH]. apply Forall_app in Ht as [_ Ht].
    rewrite Forall_singleton in IH, Ht. destruct (IH Ht) as [m Em]. rewrite Em. by eexists.
Qed.
Lemma matrix_pow t : tree_ok t -> exists i, apow_inv (matrix t) = Ok i /\ good i /\ mmul (val i) (val (matrix t)) = I2.
Proof.
  intros Ht. destruct (matrix_mat t Ht) as [m Em]. destruct (tree_inv t Ht) as (_ & _ & _ & _ & Hd). rewrite Em in *.
  rewrite apow_inv_mat by done. eexists. split; [done|]. split; [done|]. by apply minv_l.
Qed.

(** ** between *)
Fixpoint upto (t : tree) (p : list nat) (a : leaf) : m2 :=
  match p with
  | [] => match t with Tgt => I2 | _ => match a with TR => val (matrix t) | _ => I2 end end
  | i :: p =>
      match t with
      | Node l => match l !! i with Some c => mmul (upto c p a) (prod (take i l)) | None => I2 end
      | _ => I2
      end
  end.
Lemma oks_take l i : oks l -> oks (take i l). Proof. apply Forall_take. Qed.
Lemma oks_drop l i : oks l -> oks (drop i l). Proof. apply Forall_drop. Qed.
Lemma oks_lookup l i c : oks l -> l !! i = Some c -> tree_ok c.
Proof. intros Hl Hi. by eapply Forall_lookup in Hi. Qed.
Lemma upto_det t p a : tree_ok t -> det (upto t p a) <> 0.
Proof.
  revert t. induction p as [|i p IH]; intros t Ht; simpl.
  - destruct t; try (destruct a; try (rewrite det_I; lra)); try (rewrite det_I; lra); by destruct (tree_inv _ Ht) as (_ & _ & _ & _ & Hd).
  - destruct t as [| | |l]; try (rewrite det_I; lra). destruct Ht as [_ Ht]. apply oks_foldr in Ht.
    destruct (l !! i) as [c|] eqn:E; [|rewrite det_I; lra]. rewrite det_mmul.
    apply Rmult_integral_contrapositive_currified; [apply IH; by eapply oks_lookup|apply prod_det; by apply oks_take].
Qed.
Lemma prod_split l i c : l !! i = Some c -> prod l = mmul (prod (drop (i + 1) l)) (mmul (val (matrix c)) (prod (take i l))).
Proof.
  intros Hi. rewrite <- (take_drop_middle l i c Hi) at 1. rewrite prod_app. simpl. rewrite <- mmul_assoc.
  by replace (S i) with (i + 1)%nat by lia.
Qed.
Lemma prod_slice l i j c : l !! i = Some c -> (i < j)%nat -> prod (take j l) = mmul (prod (slice l (i + 1) j)) (mmul (val (matrix c)) (prod (take i l))).
Proof.
  intros Hi Hj. rewrite (prod_split (take j l) i c) by (by rewrite lookup_take by lia). rewrite take_take, Nat.min_l by lia.
  unfold slice. by rewrite skipn_firstn_comm.
Qed.
Lemma between_ok fuel : forall t t1 t2, (length (path t1) + length (path t2) < fuel)%nat -> tree_ok t -> target t t1 -> target t t2 ->
  exists m, between_f fuel t t1 t2 = Ok m /\ good m /\ mmul (val m) (upto t (path t1) (at_ t1)) = upto t (path t2) (at_ t2).
Proof.
  induction fuel as [|fuel IH]; intros t [p1 a1] [p2 a2] Hf Ht V1 V2; [simpl in Hf; lia|].
  unfold target in V1, V2. cbn [path at_] in *.
  destruct t as [p e|L n| |l].
  1-2: destruct p1 as [|], p2 as [|]; try done; destruct (tree_inv _ Ht) as (i & Ei & Gi & Hi & Hd);
    destruct a1, a2; try done; cbn [between_f path at_ upto];
    [exists eye; split; [done|]; split; [done|]; apply mmul_I_l
    |eexists; split; [done|]; split; [apply matrix_good|]; apply mmul_I_r
    |exists i; done
    |exists eye; split; [done|]; split; [done|]; apply mmul_I_l].
  { destruct p1, p2; try done. exists eye. split; [done|]. split; [done|]. destruct a1, a2; apply mmul_I_l. }
  assert (oks l) as Hl by (apply oks_foldr; apply Ht).
  destruct p1 as [|o1 p1], p2 as [|o2 p2].
  - destruct a1, a2; try done; cbn [between_f path at_ upto].
    + exists eye. split; [done|]. split; [done|]. apply mmul_I_l.
    + eexists. split; [done|]. split; [apply matrix_good|]. apply mmul_I_r.
    + by apply matrix_pow.
    + exists eye. split; [done|]. split; [done|]. apply mmul_I_l.
  - simpl in V2. destruct (l !! o2) as [c|] eqn:E2; [|done]. cbn [between_f path at_ upto]. rewrite E2. unfold lookup_err. rewrite E2.
    destruct a1; [| |done].
    + destruct (IH c (Tidx [] TL) (Tidx p2 a2)) as (m & Em & Gm & Hm); [simpl in *; lia|by eapply oks_lookup|by destruct c|done|].
      cbn [mbind res_bind]. rewrite Em. cbn [mbind res_bind].
      destruct (mats_val (take o2 l) eye (goods _) good_eye) as [Ev Gv]. destruct (amul_val m (mats (take o2 l) eye) Gm Gv) as [Ev' Gv'].
      eexists. split; [done|]. split; [done|]. rewrite Ev', Ev. cbn [path at_ upto] in Hm.
      assert (upto c [] TL = I2) as E by (by destruct c). simpl in E. rewrite E, mmul_I_r in Hm. rewrite Hm. change (val eye) with I2. by rewrite !mmul_I_r.
    + destruct (mats_inv_oks (drop (o2 + 1) l) eye (oks_drop _ _ Hl) good_eye) as (mi & Emi & Gmi & Hmi). rewrite Emi. cbn [mbind res_bind].
      destruct (IH c (Tidx [] TR) (Tidx p2 a2)) as (m & Em & Gm & Hm); [simpl in *; lia|by eapply oks_lookup|by destruct c|done|].
      rewrite Em. cbn [mbind res_bind]. destruct (amul_val m mi Gm Gmi) as [Ev Gv]. eexists. split; [done|]. split; [done|].
      rewrite Ev, matrix_node, (prod_split l o2 c E2). cbn [path at_] in Hm.
      assert (upto c [] TR = val (matrix c)) as E by (by destruct c). rewrite E in Hm.
      assert (mmul (val mi) (prod (drop (o2 + 1) l)) = I2) as Hmi'.
      { apply (cancel_l _ _ (prod (drop (o2 + 1) l))); [apply prod_det; by apply oks_drop|]. rewrite mmul_assoc, Hmi. change (val eye) with I2. by rewrite mmul_I_l, mmul_I_r. }
      rewrite <- !mmul_assoc, (mmul_assoc (val mi)), Hmi', mmul_I_l, !mmul_assoc, Hm. done.
  - simpl in V1. destruct (l !! o1) as [c|] eqn:E1; [|done]. cbn [between_f path at_ upto]. rewrite E1. unfold lookup_err. rewrite E1.
    destruct a2; [| |done].
    + cbn [mbind res_bind]. destruct (IH c (Tidx p1 a1) (Tidx [] TL)) as (m & Em & Gm & Hm); [simpl in *; lia|by eapply oks_lookup|done|by destruct c|].
      rewrite Em. cbn [mbind res_bind]. destruct (mats_inv_oks (take o1 l) m (oks_take _ _ Hl) Gm) as (mi & Emi & Gmi & Hmi).
      exists mi. split; [done|]. split; [done|]. cbn [path at_] in Hm. assert (upto c [] TL = I2) as E by (by destruct c). rewrite E in Hm.
      apply (cancel_l _ _ (prod (take o1 l))); [apply prod_det; by apply oks_take|].
      rewrite !mmul_assoc, Hmi, Hm, mmul_I_l, mmul_I_r. done.
    + cbn [mbind res_bind]. destruct (IH c (Tidx p1 a1) (Tidx [] TR)) as (m & Em & Gm & Hm); [simpl in *; lia|by eapply oks_lookup|done|by destruct c|].
      rewrite Em. cbn [mbind res_bind]. destruct (mats_val (drop (o1 + 1) l) m (goods _) Gm) as [Ev Gv].
      eexists. split; [done|]. split; [done|]. cbn [path at_] in Hm. assert (upto c [] TR = val (matrix c)) as E by (by destruct c). rewrite E in Hm.
      rewrite Ev, matrix_node, (prod_split l o1 c E1), <- mmul_assoc, (mmul_assoc (val m)), Hm. done.
  - simpl in V1, V2. destruct (l !! o1) as [c1|] eqn:E1; [|done]. destruct (l !! o2) as [c2|] eqn:E2; [|done].
    cbn [between_f path at_ upto]. rewrite E1, E2. unfold lookup_err. rewrite E1, E2.
    destruct (decide (o2 = o1)) as [->|Hne]; [|destruct (decide (o1 < o2)%nat) as [Hlt|Hge]].
    + rewrite E1 in E2. injection E2 as ->. cbn [mbind res_bind].
      destruct (IH c2 (Tidx p1 a1) (Tidx p2 a2)) as (m & Em & Gm & Hm); [simpl in *; lia|by eapply oks_lookup|done|done|].
      exists m. split; [done|]. split; [done|]. cbn [path at_] in Hm. by rewrite mmul_assoc, Hm.
    + cbn [mbind res_bind]. destruct (IH c1 (Tidx p1 a1) (Tidx [] TR)) as (m & Em & Gm & Hm); [simpl in *; lia|by eapply oks_lookup|done|by destruct c1|].
      rewrite Em. cbn [mbind res_bind].
      destruct (IH c2 (Tidx [] TL) (Tidx p2 a2)) as (m' & Em' & Gm' & Hm'); [simpl in *; lia|by eapply oks_lookup|by destruct c2|done|].
      rewrite Em'. cbn [mbind res_bind]. destruct (mats_val (slice l (o1 + 1) o2) m (goods _) Gm) as [Ev Gv].
      destruct (amul_val m' (mats (slice l (o1 + 1) o2) m) Gm' Gv) as [Ev' Gv']. eexists. split; [done|]. split; [done|].
      cbn [path at_] in Hm, Hm'. assert (upto c1 [] TR = val (matrix c1)) as E by (by destruct c1). rewrite E in Hm.
      assert (upto c2 [] TL = I2) as E' by (by destruct c2). rewrite E', mmul_I_r in Hm'.
      rewrite Ev', Ev, Hm', (prod_slice l o1 o2 c1 E1 Hlt), <- !mmul_assoc, (mmul_assoc (val m)), Hm. done.
    + cbn [mbind res_bind]. destruct (IH c1 (Tidx p1 a1) (Tidx [] TL)) as (m & Em & Gm & Hm); [simpl in *; lia|by eapply oks_lookup|done|by destruct c1|].
      rewrite Em. cbn [mbind res_bind]. destruct (mats_inv_oks (slice l (o2 + 1) o1) m) as (mi & Emi & Gmi & Hmi); [by apply oks_take, oks_drop|done|].
      rewrite Emi. cbn [mbind res_bind].
      destruct (IH c2 (Tidx [] TR) (Tidx p2 a2)) as (m' & Em' & Gm' & Hm'); [simpl in *; lia|by eapply oks_lookup|by destruct c2|done|].
      rewrite Em'. cbn [mbind res_bind]. destruct (amul_val m' mi Gm' Gmi) as [Ev Gv]. eexists. split; [done|]. split; [done|].
      cbn [path at_] in Hm, Hm'. assert (upto c1 [] TL = I2) as E by (by destruct c1). rewrite E in Hm.
      assert (upto c2 [] TR = val (matrix c2)) as E' by (by destruct c2). rewrite E' in Hm'.
      rewrite Ev, <- Hm', <- !mmul_assoc. f_equal.
      rewrite (prod_slice l o2 o1 c2 E2) by lia. set (S := prod (slice l (o2 + 1) o1)) in *.
      assert (det S <> 0) as HS by (apply prod_det; by apply oks_take, oks_drop).
      apply (cancel_l _ _ S HS). rewrite (mmul_assoc S (val mi)), Hmi, (mmul_assoc (val m)), Hm, mmul_I_l. done.
Qed.
Lemma res_inv {A B} (r : res A) (f : A -> res B) y : (r ≫= f) = Ok y -> exists x, r = Ok x /\ f x = Ok y.
Proof. destruct r as [x|]; [|done]. intros E. by exists x. Qed.
Lemma between_valid t t1 t2 m : between t t1 t2 = Ok m -> target t t1 /\ target t t2.
Proof.
  unfold between. generalize (S (length (path t1) + length (path t2))). intros fuel. revert t t1 t2 m.
  induction fuel as [|fuel IH]; intros t [p1 a1] [p2 a2] m; [done|]. unfold target. cbn [path at_].
  destruct t as [p e|L n| |l].
  1-2: simpl; destruct p1, p2; try (by destruct a1); destruct a1, a2; try done.
  { simpl. by destruct p1, p2. }
  destruct p1 as [|o1 p1], p2 as [|o2 p2].
  - simpl. by destruct a1, a2.
  - cbn [between_f path at_ valid]. destruct a1; [| |done]; intros H.
    + unfold lookup_err in H. destruct (l !! o2) as [c|] eqn:E; [|done]. simpl in H.
      destruct (between_f _ _ _ _) as [m'|] eqn:Eb; [|done]. apply IH in Eb as [_ Hv]. done.
    + apply res_inv in H as (? & _ & H). unfold lookup_err in H. destruct (l !! o2) as [c|] eqn:E; [|done]. simpl in H.
      destruct (between_f _ _ _ _) as [m'|] eqn:Eb; [|done]. apply IH in Eb as [_ Hv]. done.
  - cbn [between_f path at_ valid]. intros H. unfold lookup_err in H. destruct a2; [| |done];
    (destruct (l !! o1) as [c|] eqn:E; [|done]); simpl in H; (destruct (between_f _ _ _ _) as [m'|] eqn:Eb; [|done]); apply IH in Eb as [Hv _]; done.
  - cbn [between_f path at_ valid]. intros H. unfold lookup_err in H.
    destruct (decide (o2 = o1)) as [->|Hne].
    { destruct (l !! o1) as [c|] eqn:E; [|done]. simpl in H. by apply IH in H. }
    destruct (decide (o1 < o2)%nat).
    + destruct (l !! o1) as [c|] eqn:E; [|done]. simpl in H. apply res_inv in H as (x & Ex & H). apply IH in Ex as [Hv _].
      destruct (l !! o2) as [c2|] eqn:E2; [|done]. simpl in H. apply res_inv in H as (y & Ey & H). apply IH in Ey as [_ Hv2]. done.
    + destruct (l !! o1) as [c|] eqn:E; [|done]. simpl in H. apply res_inv in H as (x & Ex & H). apply IH in Ex as [Hv _].
      apply res_inv in H as (z & _ & H).
      destruct (l !! o2) as [c2|] eqn:E2; [|done]. simpl in H. apply res_inv in H as (y & Ey & H). apply IH in Ey as [_ Hv2]. done.
Qed.
Lemma between_upto t t1 t2 m : tree_ok t -> between t t1 t2 = Ok m ->
  mmul (val m) (upto t (path t1) (at_ t1)) = upto t (path t2) (at_ t2).
Proof.
  intros Ht E. destruct (between_valid _ _ _ _ E) as [V1 V2].
  destruct (between_ok (S (length (path t1) + length (path t2))) t t1 t2 ltac:(lia) Ht V1 V2) as (m' & E' & _ & H).
  unfold between in E. rewrite E in E'. by injection E' as ->.
Qed.
