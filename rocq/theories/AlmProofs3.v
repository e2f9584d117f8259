(** Proofs about the matrices to a position. *)
From stdpp Require Import base tactics list numbers.
From Coq Require Import Reals Lra Psatz.
From Verif Require Import Fld Py Herm CohFinal SigModel AlmModel AlmSpec AlmProofs AlmProofs2.
Local Open Scope R_scope.

Definition lens (l : list tree) : Prop := Forall lengths_ok l.
Lemma lens_foldr l : foldr (fun c P => lengths_ok c /\ P) True l <-> lens l.
Proof.
  induction l as [|c l IH]; simpl; [by split; [constructor|]|]. rewrite IH. unfold lens. by rewrite Forall_cons.
Qed.
Lemma width_nn t : lengths_ok t -> 0 <= width t.
Proof.
  induction t as [p e|L n| |l IH] using tree_ind'; simpl; intros H; try lra. apply lens_foldr in H.
  induction H as [|c l Hc _ IHl]; simpl; [lra|]. apply Forall_cons in IH as [IHc IH]. specialize (IHc Hc). specialize (IHl IH). lra.
Qed.
Lemma W_nn l : lens l -> 0 <= W l.
Proof. induction 1 as [|c l Hc _ IH]; simpl; [lra|]. pose proof (width_nn c Hc). lra. Qed.
Lemma W_flats l : Forall (fun t => W (flat t) = width t) l -> W (l ≫= flat) = W l.
Proof. induction 1 as [|c l Hc _ IH]; [done|]. rewrite bind_cons, W_app, IH, Hc. done. Qed.
Lemma W_flat t : W (flat t) = width t.
Proof.
  induction t as [p e|L n| |l IH] using tree_ind'; [simpl; ring..|]. rewrite flat_node. by apply W_flats.
Qed.
Lemma lens_flat t : lengths_ok t -> lens (flat t).
Proof.
  induction t as [p e|L n| |l IH] using tree_ind'; intros H; [constructor; [done|constructor]..|]. rewrite flat_node. simpl in H. apply lens_foldr in H.
  induction H as [|c l Hc _ IHl]; simpl; [constructor|]. apply Forall_cons in IH as [IHc IH]. apply Forall_app. split; [by apply IHc|by apply IHl].
Qed.
(** ** places *)
Lemma positions_nth l : forall x i, (i <= length l)%nat -> nth i (positions x l) 0 = x + W (take i l).
Proof.
  induction l as [|c l IH]; intros x [|i] Hi; simpl in *; try lia; try ring. rewrite IH by lia. ring.
Qed.
Lemma sorted_right_spec l : forall x z, lens l ->
  (z < x /\ sorted_right (positions x l) z = 0%nat) \/
  (x <= z /\ exists i, sorted_right (positions x l) z = S i /\ (i <= length l)%nat /\ x + W (take i l) <= z /\
     ((i < length l)%nat -> z < x + W (take (S i) l))).
Proof.
  induction l as [|c l IH]; intros x z Hl.
  - unfold sorted_right. simpl. destruct (Rle_dec x z); [right|left; split; [lra|done]]. split; [lra|]. exists 0%nat. simpl. repeat split; try lia. lra.
  - apply Forall_cons in Hl as [Hc Hl]. pose proof (width_nn c Hc) as Hw. unfold sorted_right in *. cbn [positions List.filter].
    destruct (IH (x + width c) z Hl) as [[Hz E]|[Hz (i & E & Hi & Hlo & Hhi)]]; destruct (Rle_dec x z); cbn [length] in *; rewrite ?E.
    + right. split; [lra|]. exists 0%nat. simpl. repeat split; try lia; [lra|]. intros _. rewrite ?take_0; simpl; rewrite ?take_0; simpl; lra.
    + left. split; [lra|done].
    + right. split; [lra|]. exists (S i). simpl. repeat split; try lia; [lra|]. intros Hlt. specialize (Hhi ltac:(lia)). simpl in Hhi. lra.
    + lra.
Qed.
Lemma sorted_left_spec l : forall x z, lens l ->
  (z <= x /\ sorted_left (positions x l) z = 0%nat) \/
  (x < z /\ exists i, sorted_left (positions x l) z = S i /\ (i <= length l)%nat /\ x + W (take i l) < z /\
     ((i < length l)%nat -> z <= x + W (take (S i) l))).
Proof.
  induction l as [|c l IH]; intros x z Hl.
  - unfold sorted_left. simpl. destruct (Rlt_dec x z); [right|left; split; [lra|done]]. split; [lra|]. exists 0%nat. simpl. repeat split; try lia. lra.
  - apply Forall_cons in Hl as [Hc Hl]. pose proof (width_nn c Hc) as Hw. unfold sorted_left in *. cbn [positions List.filter].
    destruct (IH (x + width c) z Hl) as [[Hz E]|[Hz (i & E & Hi & Hlo & Hhi)]]; destruct (Rlt_dec x z); cbn [length] in *; rewrite ?E.
    + right. split; [lra|]. exists 0%nat. simpl. repeat split; try lia; [lra|]. intros _. rewrite ?take_0; simpl; rewrite ?take_0; simpl; lra.
    + left. split; [lra|done].
    + right. split; [lra|]. exists (S i). simpl. repeat split; try lia; [lra|]. intros Hlt. specialize (Hhi ltac:(lia)). simpl in Hhi. lra.
    + lra.
Qed.
Lemma take_S_W l i c : l !! i = Some c -> W (take (S i) l) = W (take i l) + width c.
Proof. intros H. rewrite (take_S_r _ _ _ H), W_app. simpl. ring. Qed.
Lemma W_take_mono l i j : lens l -> (i <= j)%nat -> W (take i l) <= W (take j l).
Proof.
  intros Hl Hij. replace (take i l) with (take i (take j l)) by (rewrite take_take; f_equal; lia).
  rewrite <- (take_drop i (take j l)) at 2. rewrite W_app.
  pose proof (W_nn (drop i (take j l)) ltac:(by apply Forall_drop, Forall_take)). lra.
Qed.
(** ** walk and planes *)
Definition leaf (c : tree) : Prop := forall l, c <> Node l.
Lemma flat_leaf t : Forall leaf (flat t).
Proof.
  induction t as [p e|L n| |l IH] using tree_ind'; [constructor; [done|constructor]..|]. rewrite flat_node.
  induction IH as [|c l Hc _ IHl]; simpl; [constructor|]. by apply Forall_app.
Qed.
Lemma flats_leaf l : Forall leaf (l ≫= flat).
Proof. induction l as [|c l IH]; simpl; [constructor|]. apply Forall_app. split; [apply flat_leaf|done]. Qed.
Lemma lens_flats l : lens l -> lens (l ≫= flat).
Proof. induction 1 as [|c l Hc _ IH]; simpl; [constructor|]. apply Forall_app. split; [by apply lens_flat|done]. Qed.
Lemma W_flats' l : W (l ≫= flat) = W l.
Proof. apply W_flats. apply Forall_true. apply W_flat. Qed.
Lemma prod_flats' l : prod (l ≫= flat) = prod l.
Proof. apply prod_flats. apply Forall_true. apply prod_flat. Qed.
Lemma walk_app l1 : forall l2 z, lens l1 -> Forall leaf l1 -> 0 <= z ->
  (z < W l1 -> walk (l1 ++ l2) z = walk l1 z) /\ (W l1 <= z -> walk (l1 ++ l2) z = mmul (walk l2 (z - W l1)) (prod l1)).
Proof.
  induction l1 as [|c l1 IH]; intros l2 z Hl Hn Hz.
  { simpl. split; [lra|]. intros _. by rewrite mmul_I_r, Rminus_0_r. }
  apply Forall_cons in Hl as [Hc Hl]. apply Forall_cons in Hn as [Hcn Hn].
  assert (width c = 0 -> walk (c :: l1 ++ l2) z = mmul (walk (l1 ++ l2) z) (val (matrix c)) -> walk (c :: l1) z = mmul (walk l1 z) (val (matrix c)) ->
    (z < W (c :: l1) → walk ((c :: l1) ++ l2) z = walk (c :: l1) z) ∧ (W (c :: l1) <= z → walk ((c :: l1) ++ l2) z = mmul (walk l2 (z - W (c :: l1))) (prod (c :: l1)))) as Hthin.
  { intros E E1 E2. destruct (IH l2 z Hl Hn Hz) as [I1 I2]. cbn [W foldr app]. fold (W l1). rewrite E, Rplus_0_l. split; intros H.
    - rewrite E1, E2, I1 by done. done.
    - rewrite E1, I2 by done. simpl. by rewrite mmul_assoc. }
  destruct c as [p e|L n| |l]; [by apply Hthin| |by apply Hthin|by destruct (Hcn l)].
  cbn [W foldr app width walk prod]. fold (W l1) (prod l1). simpl in Hc. pose proof (W_nn l1 Hl). destruct (Rlt_dec z L) as [HL|HL].
  - split; [done|lra].
  - destruct (IH l2 (z - L) Hl Hn ltac:(lra)) as [I1 I2]. split; intros H'.
    + by rewrite I1 by lra.
    + rewrite I2 by lra. rewrite mmul_assoc. simpl. do 3 f_equal. ring.
Qed.
Lemma plane_eq l z z' m m' : plane l z m -> z = z' -> m = m' -> plane l z' m'.
Proof. by intros H -> ->. Qed.
Lemma plane_nn l z m : lens l -> plane l z m -> 0 <= z.
Proof.
  intros Hl H. induction H as [l|L n l z Hz|L n l z m H IH|c l z m Hc H IH|z Hz]; try lra.
  - apply Forall_cons in Hl as [Hc Hl]. simpl in Hc. specialize (IH Hl). lra.
  - apply Forall_cons in Hl as [_ Hl]. by apply IH.
Qed.
Lemma plane_app_l l1 z m l2 : lens l1 -> Forall leaf l1 -> plane l1 z m -> z <= W l1 -> plane (l1 ++ l2) z m.
Proof.
  intros Hl Hn H. induction H as [l|L n l z Hz|L n l z m H IH|c l z m Hc H IH|z Hz]; intros HW.
  - constructor.
  - by constructor.
  - apply Forall_cons in Hl as [_ Hl]. apply Forall_cons in Hn as [_ Hn]. simpl. constructor. apply IH; try done. simpl in HW. fold (W l) in HW. lra.
  - apply Forall_cons in Hl as [_ Hl]. apply Forall_cons in Hn as [Hcn Hn]. simpl. constructor; [done|]. apply IH; try done. simpl in HW. fold (W l) in HW.
    destruct c as [p e|L n| |l']; simpl in HW; [lra|by destruct (Hc L n)|lra|by destruct (Hcn l')].
  - simpl in HW. assert (z = 0) as -> by lra. apply plane_here.
Qed.
Lemma plane_app_r l1 l2 z m : Forall leaf l1 -> plane l2 z m -> plane (l1 ++ l2) (z + W l1) (mmul m (prod l1)).
Proof.
  intros Hn H. induction l1 as [|c l1 IH]; simpl; [by rewrite Rplus_0_r, mmul_I_r|]. fold (W l1) (prod l1). apply Forall_cons in Hn as [Hcn Hn]. specialize (IH Hn).
  destruct c as [p e|L n| |l].
  - eapply plane_eq; [apply plane_thin; [done|exact IH]|simpl; ring|]. by rewrite mmul_assoc.
  - eapply plane_eq; [apply (plane_space L n), IH|simpl; ring|]. by rewrite mmul_assoc.
  - eapply plane_eq; [apply plane_thin; [done|exact IH]|simpl; ring|]. by rewrite mmul_assoc.
  - by destruct (Hcn l).
Qed.
Lemma walk_plane l : forall z, lens l -> 0 <= z -> plane l z (walk l z).
Proof.
  induction l as [|c l IH]; intros z Hl Hz; [by constructor|]. apply Forall_cons in Hl as [Hc Hl].
  destruct c as [p e|L n| |l']; cbn [walk].
  1, 3, 4: apply plane_thin; [done|by apply IH].
  destruct (Rlt_dec z L); [apply plane_in; lra|].
  eapply plane_eq; [apply (plane_space L n), (IH (z - L) Hl); lra|ring|done].
Qed.
Lemma plane_walk l : forall z m, lens l -> Forall leaf l -> ~ thin_at l z -> plane l z m -> m = walk l z.
Proof.
  induction l as [|c l IH]; intros z m Hl Hn Ht H.
  { inversion H; subst; done. }
  apply Forall_cons in Hl as [Hc Hl]. apply Forall_cons in Hn as [Hcn Hn].
  destruct c as [p e|L n| |l']; [| | |by destruct (Hcn l')].
  - inversion H; subst; [by destruct Ht; left|]. simpl. f_equal. apply IH; try done. intros Ht'. apply Ht. by right.
  - simpl in Ht, Hc |- *. inversion H as [|? ? ? ? Hz|? ? ? z' m' H'|? ? ? ? Hns|]; subst.
    + destruct (Rlt_dec 0 L); [unfold I2; apply m2_eq; try ring; unfold Rdiv; ring|]. assert (L = 0) as -> by lra. rewrite Rminus_0_r in *.
      rewrite <- (IH 0 I2 Hl Hn Ht (plane_here l)). unfold mmul, I2. simpl. apply m2_eq; unfold Rdiv; ring.
    + destruct (Rlt_dec z L); [done|]. assert (z = L) as -> by lra. replace (L - L) with 0 in * by ring.
      rewrite <- (IH 0 I2 Hl Hn Ht (plane_here l)). by rewrite mmul_I_l.
    + replace (L + z' - L) with z' in * by ring. rewrite (IH z' m' Hl Hn Ht H'). pose proof (plane_nn _ _ _ Hl H'). destruct (Rlt_dec (L + z') L); [lra|done].
    + by destruct (Hns L n).
  - inversion H; subst; [by destruct Ht; left|]. simpl. f_equal. apply IH; try done. intros Ht'. apply Ht. by right.
Qed.
(** ** to a position *)
Lemma flat_split l i c : l !! i = Some c -> flat (Node l) = (take i l ≫= flat) ++ flat c ++ (drop (S i) l ≫= flat).
Proof. intros H. rewrite flat_node. rewrite <- (take_drop_middle l i c H) at 1. by rewrite bind_app, bind_cons. Qed.
Lemma depth_lookup l i c : l !! i = Some c -> (depth c < depth (Node l))%nat.
Proof.
  revert i. induction l as [|d l IH]; intros [|i] H; simpl in *; try done.
  - injection H as ->. lia.
  - specialize (IH i H). simpl in IH. lia.
Qed.
Lemma lens_lookup l i c : lens l -> l !! i = Some c -> lengths_ok c.
Proof. intros Hl Hi. by eapply Forall_lookup in Hi. Qed.
Definition sys (t : tree) : Prop := exists l, t = Node l.
Lemma space_0 : M2 1 0 0 1 = I2. Proof. done. Qed.
Lemma to_z_left fuel : forall t z, (depth t <= fuel)%nat -> tree_ok t -> lengths_ok t -> 0 <= z -> z <= width t \/ sys t ->
  exists m, to_z_f fuel t left_ z = Ok m /\ good m /\ val m = walk (flat t) z.
Proof.
  induction fuel as [|fuel IH]; intros t z Hf Ht Hl Hz Hw; [destruct t; simpl in Hf; lia|].
  destruct t as [p e|L n| |l]; cbn [to_z_f left_ path at_].
  - assert (z = 0) as -> by (destruct Hw as [Hw|[? ?]]; [simpl in Hw; lra|done]). destruct (Req_EM_T 0 0); [|done].
    eexists. split; [done|]. split; [apply (matrix_good (Thin p e))|]. simpl. rewrite space_0. by rewrite mmul_I_l.
  - assert (z <= L) by (destruct Hw as [Hw|[? ?]]; [simpl in Hw; lra|done]). destruct (Rlt_dec z 0); [lra|]. destruct (Rlt_dec L z); [lra|].
    eexists. split; [done|]. split; [done|]. simpl. destruct (Rlt_dec z L); [done|]. assert (z = L) as -> by lra.
    unfold mmul. simpl. apply m2_eq; ring.
  - assert (z = 0) as -> by (destruct Hw as [Hw|[? ?]]; [simpl in Hw; lra|done]). destruct (Req_EM_T 0 0); [|done].
    eexists. split; [done|]. split; [done|]. simpl. rewrite space_0. by rewrite mmul_I_l.
  - simpl in Hl. apply lens_foldr in Hl. destruct Ht as [Hne Ht]. apply oks_foldr in Ht.
    destruct (sorted_right_spec l 0 z Hl) as [[Hz' _]|[_ (i & E & Hi & Hlo & Hhi)]]; [lra|]. rewrite E.
    destruct (mats_val (take i l) eye (goods _) good_eye) as [Ev Gv]. change (val eye) with I2 in Ev. rewrite mmul_I_r in Ev.
    destruct (decide (i < length l)%nat) as [Hlt|Hge].
    + destruct (lookup_lt_is_Some_2 l i Hlt) as [c Ec]. unfold lookup_err. rewrite Ec. cbn [mbind res_bind].
      specialize (Hhi Hlt). rewrite (take_S_W _ _ _ Ec) in Hhi. rewrite positions_nth by lia.
      assert (z - (0 + W (take i l)) = z - W (take i l)) as -> by ring. set (z' := z - W (take i l)) in *.
      pose proof (depth_lookup _ _ _ Ec) as Hd.
      destruct (IH c z') as (m & Em & Gm & Hm); [lia|by eapply oks_lookup|by eapply lens_lookup|unfold z'; lra|left; unfold z'; lra|].
      unfold left_ in Em. rewrite Em. cbn [mbind res_bind]. destruct (amul_val m _ Gm Gv) as [Em' Gm']. eexists. split; [done|]. split; [done|].
      rewrite Em', Ev, Hm, (flat_split l i c Ec).
      destruct (walk_app (take i l ≫= flat) (flat c ++ (drop (S i) l ≫= flat)) z) as [_ E1]; [by apply lens_flats, Forall_take|apply flats_leaf|done|].
      rewrite E1 by (rewrite W_flats'; lra). rewrite W_flats', prod_flats'. f_equal. fold z'.
      destruct (walk_app (flat c) (drop (S i) l ≫= flat) z') as [E2 _]; [apply lens_flat; by eapply lens_lookup|apply flat_leaf|unfold z'; lra|].
      rewrite E2; [done|]. rewrite W_flat. unfold z'. lra.
    + assert (i = length l) as -> by lia. eexists. split; [done|]. rewrite positions_nth by lia. rewrite firstn_all in *.
      destruct (amul_val (matrix_space (z - (0 + W l))) (matrix (Node l))) as [E1 G1]; [done|apply matrix_good|]. split; [done|].
      rewrite E1, flat_node, matrix_node. rewrite <- (app_nil_r (l ≫= flat)).
      destruct (walk_app (l ≫= flat) [] z) as [_ E2]; [by apply lens_flats|apply flats_leaf|done|].
      rewrite E2 by (rewrite W_flats'; lra). rewrite W_flats', prod_flats'. simpl. do 2 f_equal. ring.
Qed.
Lemma to_z_before fuel l z : lens l -> z < 0 -> to_z_f (S fuel) (Node l) left_ z = Ok (matrix_space z).
Proof.
  intros Hl Hz. cbn [to_z_f left_ path at_]. destruct (sorted_right_spec l 0 z Hl) as [[_ E]|[H _]]; [by rewrite E|lra].
Qed.
Lemma upto_left t : upto t [] TL = I2. Proof. by destruct t. Qed.
Lemma upto_right t : upto t [] TR = val (matrix t). Proof. by destruct t. Qed.
Lemma valid_left t : target t left_. Proof. by destruct t. Qed.
Lemma valid_right t : target t right_. Proof. by destruct t. Qed.
Definition reaches (t : tree) (z : R) (x : m2) : Prop := plane (flat t) z x \/ (z < 0 /\ x = M2 1 z 0 1).
Lemma reaches_child l i c z x : lens l -> l !! i = Some c -> plane (flat c) z x -> z <= width c ->
  plane (flat (Node l)) (z + W (take i l)) (mmul x (prod (take i l))).
Proof.
  intros Hl Hi H Hz. rewrite (flat_split l i c Hi). rewrite <- W_flats', <- prod_flats'.
  apply plane_app_r; [apply flats_leaf|]. apply plane_app_l; [apply lens_flat; by eapply lens_lookup|apply flat_leaf|done|]. by rewrite W_flat.
Qed.
Lemma between_val t t1 t2 : tree_ok t -> target t t1 -> target t t2 ->
  exists m, between t t1 t2 = Ok m /\ good m /\ mmul (val m) (upto t (path t1) (at_ t1)) = upto t (path t2) (at_ t2).
Proof. intros. apply between_ok; try done. lia. Qed.
Lemma to_z_plane fuel : forall t t1 z, (depth t <= fuel)%nat -> tree_ok t -> lengths_ok t -> target t t1 ->
  0 <= z <= width t \/ sys t ->
  exists m, to_z_f fuel t t1 z = Ok m /\ good m /\ reaches t z (mmul (val m) (upto t (path t1) (at_ t1))).
Proof.
  induction fuel as [|fuel IH]; intros t t1 z Hf Ht Hl V Hw; [destruct t; simpl in Hf; lia|].
  destruct t as [p e|L n| |l].
  - assert (z = 0) as -> by (destruct Hw as [Hw|[? ?]]; [simpl in Hw; lra|done]). destruct t1 as [[|] a]; [|done].
    destruct (tree_inv _ Ht) as (i & Ei & Gi & Hi & _). cbn [to_z_f path at_]. destruct (Req_EM_T 0 0); [|done].
    destruct a; [| |done].
    + eexists. split; [done|]. split; [apply (matrix_good (Thin p e))|]. left. cbn [upto flat]. rewrite mmul_I_r.
      eapply plane_eq; [apply (plane_thin (Thin p e) [] 0 I2); [done|constructor]|done|]. by rewrite mmul_I_l.
    + exists i. split; [done|]. split; [done|]. left. cbn [upto]. rewrite Hi. constructor.
  - assert (0 <= z <= L) by (destruct Hw as [Hw|[? ?]]; [simpl in Hw; lra|done]). destruct t1 as [[|] a]; [|done].
    cbn [to_z_f path at_]. destruct (Rlt_dec z 0); [lra|]. destruct (Rlt_dec L z); [lra|]. simpl in Ht.
    destruct a; [| |done]; eexists; (split; [done|]); (split; [done|]); left; cbn [upto flat].
    + rewrite mmul_I_r. by apply plane_in.
    + eapply plane_eq; [by apply (plane_in L n [] z)|done|]. unfold mmul. simpl. apply m2_eq; try ring. field. done.
  - assert (z = 0) as -> by (destruct Hw as [Hw|[? ?]]; [simpl in Hw; lra|done]). destruct t1 as [[|] a]; [|done].
    cbn [to_z_f path at_]. destruct (Req_EM_T 0 0); [|done].
    eexists. split; [done|]. split; [done|]. left. cbn [upto]. rewrite mmul_I_r. constructor.
  - destruct (Rlt_dec z 0) as [Hneg|Hpos].
    { (* in front of everything *)
      pose proof Hl as Hl'. simpl in Hl'. apply lens_foldr in Hl'. destruct t1 as [[|o1 p1] a].
      - destruct a; [| |by destruct V].
        + exists (matrix_space z). split; [by apply to_z_before|]. split; [done|]. right. split; [done|]. cbn [path at_]. rewrite upto_left. apply mmul_I_r.
        + destruct (matrix_pow _ Ht) as (i & Ei & Gi & Hi). pose proof (to_z_before fuel l z Hl' Hneg) as E. cbn [to_z_f left_ path at_] in E |- *.
          rewrite E. cbn [mbind res_bind]. rewrite Ei. cbn [mbind res_bind]. eexists. split; [done|]. destruct (amul_val (matrix_space z) i I Gi) as [Ev Gv]. split; [done|].
          right. split; [done|]. cbn [upto]. rewrite Ev, <- mmul_assoc, Hi. apply mmul_I_r.
      - unfold target in V. cbn [path at_ valid] in V. destruct (l !! o1) as [c|] eqn:Ec; [|done]. cbn [to_z_f path at_]. unfold lookup_err. rewrite Ec. cbn [mbind res_bind].
        assert (o1 < length l)%nat by (by apply lookup_lt_is_Some_1). rewrite positions_nth by lia.
        destruct Ht as [_ Ht]. apply oks_foldr in Ht.
        assert (0 <= W (take o1 l)) by (apply W_nn; by apply Forall_take). destruct (Rlt_dec z (0 + W (take o1 l))); [|lra].
        destruct (between_val c (Tidx p1 a) left_) as (m & Em & Gm & Hm); [by eapply oks_lookup|done|apply valid_left|].
        unfold left_ in Em. rewrite Em. cbn [mbind res_bind]. destruct (sorted_left_spec l 0 z Hl') as [[_ E]|[Hc _]]; [|lra]. rewrite E.
        destruct (mats_inv_oks (take o1 l) m (oks_take _ _ Ht) Gm) as (mi & Emi & Gmi & Hmi). rewrite Emi. cbn [mbind res_bind].
        eexists. split; [done|]. destruct (amul_val (matrix_space (z - nth 0 (positions 0 l) 0)) mi I Gmi) as [Ev Gv]. split; [done|].
        right. split; [done|]. cbn [upto path at_] in Hm |- *. rewrite Ec, Ev, <- !mmul_assoc. rewrite upto_left in Hm.
        assert (mmul (val mi) (mmul (upto c p1 a) (prod (take o1 l))) = I2) as ->.
        { apply (cancel_l _ _ (prod (take o1 l))); [apply prod_det; by apply oks_take|]. by rewrite !mmul_assoc, Hmi, Hm, mmul_I_l, mmul_I_r. }
        rewrite mmul_I_r, positions_nth by lia. simpl. apply m2_eq; ring. }
    assert (0 <= z) as Hz by lra. clear Hpos.
    destruct (to_z_left (S fuel) (Node l) z Hf Ht Hl Hz) as (ml & Eml & Gml & Hml); [right; by exists l|].
    pose proof Hl as Hl'. simpl in Hl'. apply lens_foldr in Hl'.
    destruct t1 as [[|o1 p1] a].
    { destruct a; [| |by destruct V].
      - exists ml. split; [done|]. split; [done|]. left. cbn [path at_]. rewrite upto_left, mmul_I_r, Hml. apply walk_plane; [by apply lens_flat|done].
      - destruct (matrix_pow _ Ht) as (i & Ei & Gi & Hi). cbn [to_z_f left_ path at_] in Eml |- *.
        rewrite Eml. cbn [mbind res_bind]. rewrite Ei. cbn [mbind res_bind]. eexists. split; [done|]. destruct (amul_val ml i Gml Gi) as [Ev Gv]. split; [done|].
        left. cbn [upto]. rewrite Ev, <- mmul_assoc, Hi, mmul_I_r, Hml. apply walk_plane; [by apply lens_flat|done]. }
    clear ml Eml Gml Hml. unfold target in V. cbn [path at_ valid] in V. destruct (l !! o1) as [c|] eqn:Ec; [|done].
    cbn [to_z_f path at_ upto]. unfold lookup_err. rewrite Ec. cbn [mbind res_bind].
    assert (o1 < length l)%nat as Ho1 by (by apply lookup_lt_is_Some_1). rewrite (positions_nth l 0 o1), (positions_nth l 0 (o1 + 1)) by lia.
    destruct Ht as [_ Ht]. apply oks_foldr in Ht. assert (W (take (o1 + 1) l) = W (take o1 l) + width c) as EW by (rewrite Nat.add_1_r; by apply take_S_W). rewrite EW, !Rplus_0_l.
    destruct (Rlt_dec z (W (take o1 l))) as [HL|HL].
    { (* to the left of the target's component *)
      destruct (between_val c (Tidx p1 a) left_) as (m & Em & Gm & Hm); [by eapply oks_lookup|done|apply valid_left|].
      unfold left_ in Em. rewrite Em. cbn [mbind res_bind]. cbn [path at_ left_] in Hm. rewrite upto_left in Hm.
      destruct (sorted_left_spec l 0 z Hl') as [[Hz0 E]|[Hz0 (i & E & Hi & Hlo & Hhi)]]; rewrite E.
      - assert (z = 0) as -> by lra.
        destruct (mats_inv_oks (take o1 l) m (oks_take _ _ Ht) Gm) as (mi & Emi & Gmi & Hmi). rewrite Emi. cbn [mbind res_bind].
        eexists. split; [done|]. destruct (amul_val (matrix_space (0 - nth 0 (positions 0 l) 0)) mi I Gmi) as [Ev Gv]. split; [done|].
        left. rewrite Ev, <- !mmul_assoc.
        assert (mmul (val mi) (mmul (upto c p1 a) (prod (take o1 l))) = I2) as ->.
        { apply (cancel_l _ _ (prod (take o1 l))); [apply prod_det; by apply oks_take|]. by rewrite !mmul_assoc, Hmi, Hm, mmul_I_l, mmul_I_r. }
        eapply plane_eq; [apply plane_here|done|]. rewrite mmul_I_r, positions_nth by lia. simpl. unfold I2. apply m2_eq; ring.
      - assert (i < o1)%nat as Hio. { destruct (decide (i < o1)%nat); [done|]. pose proof (W_take_mono l o1 i Hl' ltac:(lia)). lra. }
        destruct (lookup_lt_is_Some_2 l i ltac:(lia)) as [c' Ec']. specialize (Hhi ltac:(lia)). rewrite (take_S_W _ _ _ Ec') in Hhi.
        destruct (mats_inv_oks (slice l (i + 1) o1) m) as (mi & Emi & Gmi & Hmi); [by apply oks_take, oks_drop|done|]. rewrite Emi. cbn [mbind res_bind].
        rewrite Ec'. cbn [mbind res_bind]. rewrite positions_nth by lia. assert (z - (0 + W (take i l)) = z - W (take i l)) as -> by ring.
        pose proof (depth_lookup _ _ _ Ec').
        destruct (IH c' right_ (z - W (take i l))) as (m' & Em' & Gm' & Hm'); [lia|by eapply oks_lookup|by eapply lens_lookup|apply valid_right|left; lra|].
        unfold right_ in Em'. rewrite Em'. cbn [mbind res_bind]. destruct (amul_val m' mi Gm' Gmi) as [Ev Gv]. eexists. split; [done|]. split; [done|].
        destruct Hm' as [Hm'|[? _]]; [|lra]. cbn [path at_ right_] in Hm'. rewrite upto_right in Hm'.
        left. eapply plane_eq; [apply (reaches_child l i c' _ _ Hl' Ec' Hm'); lra|ring|].
        rewrite Ev, (prod_slice l i o1 c' Ec') by lia. set (S := prod (slice l (i + 1) o1)) in *.
        assert (det S <> 0) as HS by (apply prod_det; by apply oks_take, oks_drop). rewrite <- !mmul_assoc. f_equal. symmetry.
        apply (cancel_l _ _ S HS). rewrite (mmul_assoc S (val mi)), Hmi, (mmul_assoc (val m)), Hm, mmul_I_l. done. }
    destruct (Rlt_dec (W (take o1 l) + width c) z) as [HR|HR].
    { (* to the right *)
      destruct (between_val c (Tidx p1 a) right_) as (m & Em & Gm & Hm); [by eapply oks_lookup|done|apply valid_right|].
      unfold right_ in Em. rewrite Em. cbn [mbind res_bind]. cbn [path at_ right_] in Hm. rewrite upto_right in Hm.
      destruct (sorted_right_spec l 0 z Hl') as [[Hz0 E]|[Hz0 (i & E & Hi & Hlo & Hhi)]]; [lra|]. rewrite E. rewrite Nat.sub_succ, Nat.sub_0_r.
      assert (o1 < i)%nat as Hio.
      { destruct (decide (o1 < i)%nat); [done|]. pose proof (W_take_mono l (S i) (S o1) Hl' ltac:(lia)) as Hmo. rewrite (take_S_W _ _ _ Ec) in Hmo.
        specialize (Hhi ltac:(lia)). lra. }
      destruct (decide (i < length l)%nat) as [Hlt|Hge].
      - destruct (lookup_lt_is_Some_2 l i Hlt) as [c' Ec']. specialize (Hhi Hlt). rewrite (take_S_W _ _ _ Ec') in Hhi. rewrite Ec'. cbn [mbind res_bind].
        rewrite positions_nth by lia. assert (z - (0 + W (take i l)) = z - W (take i l)) as -> by ring. pose proof (depth_lookup _ _ _ Ec').
        destruct (IH c' left_ (z - W (take i l))) as (m' & Em' & Gm' & Hm'); [lia|by eapply oks_lookup|by eapply lens_lookup|apply valid_left|left; lra|].
        unfold left_ in Em'. rewrite Em'. cbn [mbind res_bind]. destruct (mats_val (slice l (o1 + 1) i) m (goods _) Gm) as [Evs Gvs].
        destruct (amul_val m' _ Gm' Gvs) as [Ev Gv]. eexists. split; [done|]. split; [done|].
        destruct Hm' as [Hm'|[? _]]; [|lra]. cbn [path at_ left_] in Hm'. rewrite upto_left, mmul_I_r in Hm'.
        left. eapply plane_eq; [apply (reaches_child l i c' _ _ Hl' Ec' Hm'); lra|ring|].
        rewrite Ev, Evs, (prod_slice l o1 i c Ec Hio), <- !mmul_assoc. f_equal. by rewrite (mmul_assoc (val m)), Hm.
      - assert (i = length l) as -> by lia. destruct (mats_val (drop (o1 + 1) l) m (goods _) Gm) as [Evs Gvs].
        eexists. split; [done|]. destruct (amul_val (matrix_space (z - nth (length l) (positions 0 l) 0)) _ I Gvs) as [Ev Gv]. split; [done|].
        left. rewrite flat_node, <- (app_nil_r (l ≫= flat)). rewrite firstn_all in Hlo.
        eapply plane_eq; [apply plane_app_r; [apply flats_leaf|apply (plane_after (z - W l)); lra]|rewrite W_flats'; ring|].
        rewrite prod_flats', Ev, Evs, (prod_split l o1 c Ec), <- !mmul_assoc, (mmul_assoc (val m)), Hm, positions_nth by lia.
        rewrite firstn_all. f_equal. simpl. apply m2_eq; ring. }
    pose proof (depth_lookup _ _ _ Ec).
    destruct (IH c (Tidx p1 a) (z - W (take o1 l))) as (m' & Em' & Gm' & Hm'); [lia|by eapply oks_lookup|by eapply lens_lookup|done|left; lra|].
    exists m'. split; [done|]. split; [done|]. destruct Hm' as [Hm'|[? _]]; [|lra]. left. cbn [path at_] in Hm'.
    eapply plane_eq; [apply (reaches_child l o1 c _ _ Hl' Ec Hm'); lra|ring|]. by rewrite mmul_assoc.
Qed.

(** the place of a target *)
Lemma plane_end t : plane (flat t) (width t) (val (matrix t)).
Proof.
  rewrite <- (app_nil_r (flat t)). eapply plane_eq; [apply (plane_app_r (flat t) [] 0 I2); [apply flat_leaf|constructor]| |].
  - rewrite W_flat. ring.
  - by rewrite mmul_I_l, prod_flat.
Qed.
Lemma target_pos_lem p : forall fuel t a, (length p < fuel)%nat -> lengths_ok t -> valid t p a ->
  exists x, target_pos_f fuel t (Tidx p a) = Ok x /\ 0 <= x <= width t /\ plane (flat t) x (upto t p a).
Proof.
  induction p as [|i p IH]; intros fuel t a Hf Hl V; (destruct fuel as [|fuel]; [simpl in Hf; lia|]); pose proof (width_nn t Hl) as Hw.
  - destruct t as [q e|L n| |l].
    + exists 0. split; [done|]. split; [simpl; lra|]. cbn [upto]. destruct a; [constructor|exact (plane_end (Thin q e))|done].
    + destruct a; [exists 0|exists L|done]; (split; [done|]); (split; [simpl in *; lra|]); [constructor|exact (plane_end (Sp L n))].
    + exists 0. split; [done|]. split; [simpl; lra|]. constructor.
    + destruct a; [exists 0|exists (width (Node l))|done]; (split; [done|]); (split; [lra|]); [constructor|exact (plane_end (Node l))].
  - destruct t as [q e|L n| |l]; try done. cbn [valid] in V. destruct (l !! i) as [c|] eqn:E; [|done].
    assert (lens l) as Hl' by (by apply lens_foldr).
    destruct (IH fuel c a) as (x & Ex & Hx & Hp); [simpl in Hf; lia|by eapply lens_lookup|done|].
    exists (nth i (positions 0 l) 0 + x). split.
    { cbn [target_pos_f path at_]. unfold lookup_err. rewrite E. cbn [mbind res_bind]. by rewrite Ex. }
    assert (i < length l)%nat as Hi by (by eapply lookup_lt_Some). rewrite positions_nth by lia.
    pose proof (W_nn (take i l)) as H1. pose proof (take_S_W l i c E) as H2. pose proof (W_take_mono l (S i) (length l) Hl' ltac:(lia)) as H3.
    rewrite firstn_all in H3. specialize (H1 (Forall_take _ _ _ Hl')). change (width (Node l)) with (W l).
    split; [lra|]. cbn [upto]. rewrite E. eapply plane_eq; [by eapply reaches_child; [..|exact Hp|lra]|ring|done].
Qed.
