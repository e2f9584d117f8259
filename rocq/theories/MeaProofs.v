(** Proofs about the measurements on a beam layout. *)
From stdpp Require Import base tactics list numbers.
From Coq Require Import Reals Lra Psatz.
From Verif Require Import Fld Py Herm OptRot SigModel SigProofs AlmModel AlmSpec AlmProofs AlmProofs2 AlmProofs3 AlmProofs4 AlmFinal MeaModel MeaSpec.
Local Open Scope R_scope.
Add Field FCM : (f_theory C_fld).

(** ** determinants *)
Definition poss (l : list tree) : Prop := Forall indices_pos l.
Lemma poss_foldr l : foldr (fun c P => indices_pos c /\ P) True l <-> poss l.
Proof. unfold poss. induction l as [|c l IH]; simpl; [by split; [constructor|]|]. by rewrite IH, Forall_cons. Qed.
Lemma part_dpos p e : part_ok p -> indices_pos (Thin p e) -> 0 < det (val (part_matrix p e)).
Proof.
  destruct p as [|f|nf nt [r|]|[r|]|A B C]; intros Ho Hp; cbn [part_matrix]; rewrite ?focus_0; unfold det, interface; try (destruct e); cbn [val m00 m01 m10 m11]; try lra;
    try (destruct Hp; rewrite Rmult_1_l, ?Rmult_0_l, Rminus_0_r; by apply Rdiv_lt_0_compat).
  - replace (A * ((C * B + 1) / A) - B * C) with 1; [lra|]. simpl in Ho. field. done.
  - replace (A * ((C * B + 1) / A) - B * C) with 1; [lra|]. simpl in Ho. field. done.
Qed.
Lemma prod_dpos_l l : Forall (fun c => 0 < det (val (matrix c))) l -> 0 < det (prod l).
Proof. induction 1 as [|c l Hc _ IH]; simpl; [rewrite det_I; lra|]. rewrite det_mmul. nra. Qed.
Lemma tree_dpos t : tree_ok t -> indices_pos t -> 0 < det (val (matrix t)).
Proof.
  induction t as [p e|L n| |l IH] using tree_ind'; intros Ho Hp.
  - by apply part_dpos.
  - unfold det. simpl. lra.
  - unfold det. simpl. lra.
  - rewrite matrix_node. apply prod_dpos_l. destruct Ho as [_ Ho]. apply oks_foldr in Ho. apply poss_foldr in Hp. unfold oks, poss in *. clear -IH Ho Hp.
    induction l as [|c l IHl]; [constructor|]. apply Forall_cons in IH as [? ?], Ho as [? ?], Hp as [? ?]. constructor; auto.
Qed.
Lemma trees_dpos l : oks l -> poss l -> 0 < det (prod l).
Proof.
  intros Ho Hp. apply prod_dpos_l. unfold oks, poss in *. induction l as [|c l IHl]; [constructor|].
  apply Forall_cons in Ho as [? ?], Hp as [? ?]. constructor; [by apply tree_dpos|by apply IHl].
Qed.
Lemma upto_dpos p a : forall t, tree_ok t -> indices_pos t -> 0 < det (upto t p a).
Proof.
  induction p as [|i p IH]; intros t Ho Hp; simpl.
  - destruct t; try (rewrite det_I; lra); destruct a; try (rewrite det_I; lra); by apply tree_dpos.
  - destruct t as [| | |l]; try (rewrite det_I; lra). destruct (l !! i) as [c|] eqn:E; [|rewrite det_I; lra].
    destruct Ho as [_ Ho]. apply oks_foldr in Ho. apply poss_foldr in Hp. rewrite det_mmul.
    assert (0 < det (upto c p a)) by (apply IH; [by eapply oks_lookup|]; unfold poss in Hp; by eapply Forall_lookup in E).
    assert (0 < det (prod (take i l))) by (apply trees_dpos; [by apply oks_take|by apply Forall_take]). nra.
Qed.
Lemma leaves_dpos t : tree_ok t -> indices_pos t -> Forall (fun c => 0 < det (val (matrix c))) (flat t).
Proof.
  induction t as [p e|L n| |l IH] using tree_ind'; intros Ho Hp; try (constructor; [by apply tree_dpos|constructor]).
  rewrite flat_node. destruct Ho as [_ Ho]. apply oks_foldr in Ho. apply poss_foldr in Hp. unfold oks, poss in *. clear -IH Ho Hp.
  induction l as [|c l IHl]; [constructor|]. apply Forall_cons in IH as [? ?], Ho as [? ?], Hp as [? ?]. simpl. apply Forall_app. split; auto.
Qed.
Lemma walk_dpos l : Forall (fun c => 0 < det (val (matrix c))) l -> forall z, 0 < det (walk l z).
Proof.
  induction 1 as [|c l Hc Hl IH]; intros z.
  - unfold det. simpl. lra.
  - destruct c as [p e|L n| |l']; cbn [walk]; try (rewrite det_mmul; pose proof (IH z); nra).
    destruct (Rlt_dec z L); [unfold det; simpl; lra|]. rewrite det_mmul. pose proof (IH (z - L)). unfold det in *. simpl in *. nra.
Qed.

(** ** targets *)
Lemma q_targets_node l p : p ∈ q_targets (Node l) <-> exists i c p', p = i :: p' /\ l !! i = Some c /\ p' ∈ q_targets c.
Proof.
  cbn [q_targets]. enough (forall k, p ∈ (fix go (i : nat) (l : list tree) : list (list nat) :=
                 match l with [] => [] | c :: l => map (cons i) (q_targets c) ++ go (S i) l end) k l <->
    exists i c p', p = (k + i)%nat :: p' /\ l !! i = Some c /\ p' ∈ q_targets c) as H by apply (H 0%nat).
  induction l as [|c l IH]; intros k.
  - split; [intros H; by apply elem_of_nil in H|]. intros (i & c & p' & _ & H & _). done.
  - rewrite elem_of_app, IH. split.
    + intros [H|(i & d & p' & -> & Hi & Hp)].
      * apply elem_of_list_In, in_map_iff in H as (p' & <- & H). exists 0%nat, c, p'. rewrite Nat.add_0_r. split; [done|]. split; [done|]. by apply elem_of_list_In.
      * exists (S i), d, p'. by rewrite Nat.add_succ_r.
    + intros (i & d & p' & -> & Hi & Hp). destruct i as [|i].
      * left. simpl in Hi. injection Hi as ->. rewrite Nat.add_0_r. apply elem_of_list_In, in_map. by apply elem_of_list_In.
      * right. exists i, d, p'. rewrite Nat.add_succ_r. done.
Qed.
Lemma q_targets_leaf p : forall t, p ∈ q_targets t <-> leaf_at t p = Ok Tgt.
Proof.
  induction p as [|i p IH]; intros t.
  - destruct t as [| | |l]; simpl.
    + split; [intros H; by apply elem_of_nil in H|done].
    + split; [intros H; by apply elem_of_nil in H|done].
    + split; [done|]. intros _. apply elem_of_list_here.
    + split; [|done]. intros H. apply q_targets_node in H as (i & c & p' & E & _). done.
  - destruct t as [| | |l]; try (simpl; split; [intros H; by apply elem_of_nil in H|done]).
    + simpl. split; [|done]. intros H. apply elem_of_list_singleton in H. done.
    + rewrite q_targets_node. cbn [leaf_at]. unfold lookup_err. split.
      * intros (j & c & p' & E & Hi & Hp). injection E as <- <-. rewrite Hi. simpl. by apply IH.
      * destruct (l !! i) as [c|] eqn:Hi; simpl; [|done]. intros H. apply IH in H. by exists i, c, p.
Qed.
Lemma leaf_valid p : forall t, leaf_at t p = Ok Tgt -> forall a, valid t p a.
Proof.
  induction p as [|i p IH]; intros t H a; simpl in *; [by injection H as ->|].
  destruct t as [| | |l]; try done. unfold lookup_err in H. destruct (l !! i); simpl in H; [by apply IH|done].
Qed.
Lemma target_idx_ok S s x : target_idx S s = Ok x -> exists p, x = Tidx p TQ /\ beam_target S p /\ name_of S p = s.
Proof.
  unfold target_idx. destruct (List.find _ _) as [p|] eqn:E; [|done]. intros H. injection H as <-. apply List.find_some in E as [H1 H2].
  exists p. split; [done|]. apply Nat.eqb_eq in H2. split; [|done]. apply q_targets_leaf. apply in_rev in H1. by apply elem_of_list_In.
Qed.
Lemma target_idx_known S s : known S s -> exists x, target_idx S s = Ok x.
Proof.
  intros (p & Hp & Hn). unfold target_idx. destruct (List.find _ _) as [q|] eqn:E; [by eexists|].
  assert (List.In p (rev (q_targets (tree_of S)))) as Hi by (apply (proj1 (in_rev _ _)), elem_of_list_In, q_targets_leaf; exact Hp).
  pose proof (List.find_none _ _ E p Hi) as Hf. simpl in Hf. rewrite Hn in Hf. by rewrite Nat.eqb_refl in Hf.
Qed.
Lemma target_beam_ok S p : beam_target S p -> target_beam S (Tidx p TQ) = Ok (beam_of S p).
Proof. unfold target_beam, beam_target. cbn [path]. by intros ->. Qed.

(** ** matrices *)
Lemma part_matrix_mat p e : exists m, part_matrix p e = Mat m.
Proof. destruct p as [|f|nf nt [r|]|[r|]|A B C]; cbn [part_matrix]; rewrite ?focus_0; unfold interface; destruct e; by eexists. Qed.
Lemma apow_inv_is_mat m a : apow_inv (Mat m) = Ok a -> exists m', a = Mat m'.
Proof. simpl. destruct (Req_EM_T (det m) 0); [done|]. intros H. injection H as <-. by eexists. Qed.
Lemma part_inv_mat p e a : part_matrix_inv p e = Ok a -> exists m, a = Mat m.
Proof.
  destruct p as [|f|nf nt [r|]|[r|]|A B C]; cbn [part_matrix_inv]; rewrite ?focus_0; unfold interface; try (destruct e; intros H; injection H as <-; by eexists).
  - intros H. by apply apow_inv_is_mat in H.
  - intros H. by apply apow_inv_is_mat in H.
  - intros H. by apply apow_inv_is_mat in H.
Qed.
Lemma amul_mat m a : exists m', amul (Mat m) a = Mat m'. Proof. by eexists. Qed.
Lemma to_z_mat fuel : forall t x z a, to_z_f fuel t x z = Ok a -> exists m, a = Mat m.
Proof.
  induction fuel as [|fuel IH]; intros t x z a H; [done|]. cbn [to_z_f] in H. cbv zeta in H. destruct t as [p e|L n| |l].
  - destruct (Req_EM_T z 0); [|done]. destruct (match path x, at_ x with [], TR => true | _, _ => false end); [by apply part_inv_mat in H|].
    injection H as <-. apply part_matrix_mat.
  - destruct (Rlt_dec z 0); [done|]. destruct (Rlt_dec L z); [done|]. injection H as <-. by eexists.
  - destruct (Req_EM_T z 0); [|done]. injection H as <-. by eexists.
  - assert (forall a, match sorted_right (positions 0 l) z with
            | O => Ok (matrix_space z)
            | S idx =>
                if decide (idx < length l)%nat then
                  c ← lookup_err l idx; m ← to_z_f fuel c (Tidx [] TL) (z - nth idx (positions 0 l) 0);
                  Ok (amul m (mats (take idx l) eye))
                else Ok (amul (matrix_space (z - nth (length l) (positions 0 l) 0)) (matrix (Node l)))
            end = Ok a -> exists m, a = Mat m) as Hs.
    { intros b Hb. destruct (sorted_right (positions 0 l) z) as [|idx]; [injection Hb as <-; by eexists|].
      destruct (decide (idx < length l)%nat); [|injection Hb as <-; apply amul_mat].
      apply res_inv in Hb as (c & _ & Hb). apply res_inv in Hb as (m & Hm & Hb). injection Hb as <-. apply IH in Hm as [m' ->]. apply amul_mat. }
    destruct x as [[|o1 p1] a1]; cbn [path at_] in H.
    + destruct a1; [by apply Hs| |done]. apply res_inv in H as (b & Hb & H). apply res_inv in H as (i & Hi & H). injection H as <-.
      apply Hs in Hb as [m ->]. apply amul_mat.
    + apply res_inv in H as (c & Hc & H). destruct (Rlt_dec z (nth o1 (positions 0 l) 0)).
      * apply res_inv in H as (b & Hb & H). destruct (sorted_left (positions 0 l) z).
        -- apply res_inv in H as (d & Hd & H). injection H as <-. apply amul_mat.
        -- apply res_inv in H as (d & Hd & H). apply res_inv in H as (c' & Hc' & H). apply res_inv in H as (m & Hm & H). injection H as <-.
           apply IH in Hm as [m' ->]. apply amul_mat.
      * destruct (Rlt_dec (nth (o1 + 1) (positions 0 l) 0) z); [|by apply IH in H].
        apply res_inv in H as (b & Hb & H). destruct (decide _).
        -- apply res_inv in H as (c' & Hc' & H). apply res_inv in H as (m & Hm & H). injection H as <-. apply IH in Hm as [m' ->]. apply amul_mat.
        -- injection H as <-. apply amul_mat.
Qed.
(** the matrix from the left end to a place *)
Definition mat_at (S : layout) (pt : point) (M : m2) : Prop :=
  match pt with
  | AtName s => exists p, target_idx S s = Ok (Tidx p TQ) /\ M = upto (tree_of S) p TQ
  | AtIdx x => M = upto (tree_of S) (path x) (at_ x)
  | AtZ z => exists m, to_z (tree_of S) left_ z = Ok m /\ M = val m
  end.
Lemma mat_at_fun S pt M M' : mat_at S pt M -> mat_at S pt M' -> M = M'.
Proof.
  destruct pt as [s|x|z]; simpl.
  - intros (p & E & ->) (p' & E' & ->). rewrite E in E'. by injection E' as ->.
  - by intros -> ->.
  - intros (p & E & ->) (p' & E' & ->). rewrite E in E'. by injection E' as ->.
Qed.
Lemma z_ok S x z : usable S -> target (tree_of S) x -> plain S (AtZ z) ->
  exists m M, to_z (tree_of S) x z = Ok (Mat m) /\ mat_at S (AtZ z) M /\ mmul m (upto (tree_of S) (path x) (at_ x)) = M /\ 0 < det M.
Proof.
  intros ((l & El) & Ho & Hl & Hp & _) V Hz. simpl in Hz. rewrite El in *.
  destruct (C69_agree_lem l x left_ z Ho Hl V (valid_left _) Hz) as (m & m' & y & E & E' & Ey & Em).
  destruct (to_z_mat _ _ _ _ _ E) as [m0 ->]. cbn [val] in Em. exists m0, (val m'). split; [done|]. split; [simpl; rewrite El; by exists m'|].
  apply (between_upto _ _ _ _ Ho) in Ey. cbn [path at_ left_] in Ey. rewrite upto_left in Ey. split.
  - rewrite Em, <- mmul_assoc, Ey, mmul_I_r. done.
  - destruct (C69_from_left_lem l z Ho Hl) as (m1 & E1 & Ev). rewrite E' in E1. injection E1 as <-. rewrite Ev. destruct (Rlt_dec z 0).
    + unfold det. simpl. lra.
    + apply walk_dpos. by apply leaves_dpos.
Qed.
Lemma matrix_to_ok S x pt : usable S -> target (tree_of S) x -> plain S pt ->
  exists m M, matrix_to S x pt = Ok m /\ mat_at S pt M /\ mmul (val m) (upto (tree_of S) (path x) (at_ x)) = M /\ 0 < det M /\
    (forall z, pt = AtZ z -> exists m', m = Mat m').
Proof.
  intros HS V Hp. pose proof HS as (_ & Ho & _ & Hi & _). destruct pt as [s|y|z].
  - destruct (target_idx_known S s Hp) as [y Ey]. destruct (target_idx_ok S s y Ey) as (p & -> & Hb & _).
    destruct (between_val (tree_of S) x (Tidx p TQ) Ho V) as (m & E & _ & H); [by apply leaf_valid|].
    exists m, (upto (tree_of S) p TQ). cbn [matrix_to]. rewrite Ey. split; [done|]. split; [by exists p|]. split; [done|]. split; [by apply upto_dpos|done].
  - destruct (between_val (tree_of S) x y Ho V Hp) as (m & E & _ & H). exists m, (upto (tree_of S) (path y) (at_ y)).
    split; [done|]. split; [done|]. split; [done|]. split; [by apply upto_dpos|done].
  - destruct (z_ok S x z HS V Hp) as (m & M & E & HM & H & Hd). exists (Mat m), M. split; [done|]. split; [done|]. split; [done|]. split; [done|].
    intros _ _. by eexists.
Qed.

(** ** phasors *)
Definition reset (b : beam) : beam := Beam (value b) (wavelen b) 1%F.
Lemma gfac_ext a b m : value a = value b -> wavelen a = wavelen b -> gfac a m = gfac b m.
Proof. intros H1 H2. unfold gfac, b_R_inv, b_W. by rewrite H1, H2. Qed.
Lemma gouy_reset b m : gouy (propagate_matrix (reset b) m) = gfac b m.
Proof. unfold reset, propagate_matrix, gfac, b_R_inv, b_W. cbn [gouy wavelen value]. ring. Qed.
Lemma gfac_neq b m : physical b -> 0 < det m -> gfac b m <> (0 : C_fld)%F.
Proof.
  intros Hb Hm. unfold gfac. pose proof (W_pos b Hb) as HW. pose proof PI_RGT_0 as HP. destruct Hb as [_ Hl].
  assert (0 < PI * (b_W b * b_W b)) as Hk by (apply Rmult_lt_0_compat; [done|nra]).
  intros E. apply pair_eq_iff in E as [E1 E2]. simpl in E1, E2.
  assert (m01 m = 0) as H01 by nra. assert (m00 m = 0) as H00.
  { rewrite H01 in E1. apply (Rmult_eq_reg_r (PI * (b_W b * b_W b))); [|lra]. nra. }
  unfold det in Hm. rewrite H00, H01 in Hm. lra.
Qed.
Lemma gfac_chain b m m' : physical b -> 0 < det m -> 0 < det m' ->
  same_phase (gfac b m * gfac (propagate_matrix b m) m')%F (gfac b (mmul m' m)).
Proof.
  intros Hb Hm Hm'. pose proof (gouy_mul (reset b) m m' Hb Hm Hm') as H.
  change (gouy (propagate_matrix (propagate_matrix (reset b) m) m')) with ((gouy (propagate_matrix (reset b) m)) * gfac (propagate_matrix (reset b) m) m')%F in H.
  rewrite !gouy_reset in H. rewrite (gfac_ext (propagate_matrix (reset b) m) (propagate_matrix b m)) in H by done. done.
Qed.
Lemma C_sq_mul (x y : C_fld) : C_sq (x * y)%F = C_sq x * C_sq y.
Proof. destruct x, y. unfold C_sq. simpl. ring. Qed.
Lemma C_sq_cre k : C_sq (cre k) = k * k.
Proof. unfold C_sq, cre. simpl. ring. Qed.
Lemma cunit_mag (x : C_fld) : x <> (0 : C_fld)%F -> mag2 (cunit x) = 1.
Proof.
  intros Hx. pose proof (C_sq_pos x Hx) as Hp. unfold mag2, cunit. assert (0 < R_sqrt.sqrt (C_sq x)) as Hs by (by apply sqrt_lt_R0).
  rewrite C_sq_div; [|apply cneq; simpl; nra]. assert (C_sq (cre (R_sqrt.sqrt (C_sq x))) = C_sq x) as ->; [|field; lra].
  rewrite C_sq_cre. apply sqrt_sqrt. lra.
Qed.
Lemma cunit_mul (x y : C_fld) : x <> (0 : C_fld)%F -> y <> (0 : C_fld)%F -> cunit (x * y)%F = (cunit x * cunit y)%F.
Proof.
  intros Hx Hy. pose proof (C_sq_pos x Hx) as Hp. pose proof (C_sq_pos y Hy) as Hq. unfold cunit. rewrite C_sq_mul, sqrt_mult by lra. rewrite cre_mul.
  assert (0 < R_sqrt.sqrt (C_sq x)) by (by apply sqrt_lt_R0). assert (0 < R_sqrt.sqrt (C_sq y)) by (by apply sqrt_lt_R0).
  field. split; apply cneq; simpl; nra.
Qed.
Lemma cunit_cre k : 0 < k -> cunit (cre k) = 1%F.
Proof.
  intros Hk. unfold cunit. assert (C_sq (cre k) = k * k) as -> by (unfold C_sq, cre; simpl; ring). rewrite sqrt_square by lra.
  field. apply cneq. simpl. nra.
Qed.
Lemma cunit_phase (x y : C_fld) : y <> (0 : C_fld)%F -> same_phase x y -> cunit x = cunit y.
Proof.
  intros Hy (k & Hk & ->). rewrite cunit_mul; [|apply cneq; simpl; nra|done]. rewrite cunit_cre by done. ring.
Qed.
Lemma unit_inv (x : C_fld) : mag2 x = 1 -> (x * cconj x)%F = 1%F.
Proof. destruct x as [a b]. unfold mag2, C_sq, cconj. simpl. intros H. apply pair_eq_iff. simpl. split; [rewrite <- H; ring|ring]. Qed.

(** a beam from a target to a place *)
Lemma target_q_ok S p pt : usable S -> beam_target S p -> plain S pt ->
  exists m M, matrix_to S (Tidx p TQ) pt = Ok m /\ mat_at S pt M /\ mmul (val m) (upto (tree_of S) p TQ) = M /\ 0 < det (val m) /\
    target_q S (Tidx p TQ) pt = Ok (propagate_matrix (beam_of S p) (val m)).
Proof.
  intros HS Hb Hp. pose proof HS as (_ & Ho & _ & Hi & _). destruct (matrix_to_ok S (Tidx p TQ) pt HS) as (m & M & E & HM & H & Hd & _); [by apply leaf_valid|done|].
  exists m, M. split; [done|]. split; [done|]. split; [done|]. split.
  - rewrite <- H, det_mmul in Hd. cbn [path at_] in Hd. pose proof (upto_dpos p TQ _ Ho Hi). nra.
  - unfold target_q. rewrite E. cbn [mbind res_bind]. by rewrite target_beam_ok.
Qed.
Lemma gouy_ok S src p1 p2 : usable S -> known S src -> plain S p1 -> plain S p2 -> name_or_z p1 -> name_or_z p2 ->
  exists p A1 A2 m, target_idx S src = Ok (Tidx p TQ) /\ beam_target S p /\
    mat_at S p1 (mmul A1 (upto (tree_of S) p TQ)) /\ mat_at S p2 (mmul A2 (upto (tree_of S) p TQ)) /\
    0 < det A1 /\ 0 < det m /\ mmul m A1 = A2 /\
    relative_gouy S src p1 p2 = Ok (cunit (gfac (propagate_matrix (beam_of S p) A1) m)).
Proof.
  intros HS Hs H1 H2 N1 N2. destruct (target_idx_known S src Hs) as [x Ex]. destruct (target_idx_ok S src x Ex) as (p & -> & Hb & _).
  pose proof HS as (_ & Ho & _ & Hi & _). set (U := upto (tree_of S) p TQ). assert (0 < det U) as HU by (by apply upto_dpos).
  destruct (target_q_ok S p p1 HS Hb H1) as (m1 & M1 & E1 & F1 & G1 & D1 & _). destruct (target_q_ok S p p2 HS Hb H2) as (m2 & M2 & E2 & F2 & G2 & D2 & _).
  fold U in G1, G2. exists p, (val m1), (val m2).
  assert (exists a, match p2, p1 with
        | AtName s2, AtName s1 => x2 ← target_idx S s2; x1 ← target_idx S s1; between (tree_of S) x1 x2
        | AtName s2, AtZ z1 => x2 ← target_idx S s2; m ← to_z (tree_of S) x2 z1; apow_inv m
        | AtZ z2, AtName s1 => x1 ← target_idx S s1; to_z (tree_of S) x1 z2
        | AtZ z2, AtZ _ => m ← to_z (tree_of S) (Tidx p TQ) z2; i ← apow_inv m1; Ok (amul m i)
        | _, _ => Err TypeError
        end = Ok a /\ mmul (val a) M1 = M2) as (a & Ea & Ha).
  { destruct p2 as [s2| |z2]; [|done|]; (destruct p1 as [s1| |z1]; [|done|]).
    - destruct F1 as (q1 & K1 & ->). destruct F2 as (q2 & K2 & ->). rewrite K1, K2. cbn [mbind res_bind].
      destruct (target_idx_ok S s1 _ K1) as (q1' & Eq1 & B1 & _). injection Eq1 as <-. destruct (target_idx_ok S s2 _ K2) as (q2' & Eq2 & B2 & _). injection Eq2 as <-.
      destruct (between_val (tree_of S) (Tidx q1 TQ) (Tidx q2 TQ) Ho) as (a & Ea & _ & Ha); [by apply leaf_valid|by apply leaf_valid|]. by exists a.
    - destruct F2 as (q2 & K2 & ->). rewrite K2. cbn [mbind res_bind].
      destruct (target_idx_ok S s2 _ K2) as (q2' & Eq2 & B2 & _). injection Eq2 as <-.
      destruct (z_ok S (Tidx q2 TQ) z1 HS) as (m & M & Em & HM & HE & Hd); [by apply leaf_valid|done|]. rewrite Em. cbn [mbind res_bind].
      rewrite (mat_at_fun _ _ _ _ F1 HM). cbn [path at_] in HE. assert (det m <> 0) as Hm.
      { intros Z. rewrite <- HE, det_mmul, Z in Hd. lra. }
      rewrite apow_inv_mat by done. eexists. split; [done|]. cbn [val]. rewrite <- HE, mmul_assoc, minv_l, mmul_I_l by done. done.
    - destruct F1 as (q1 & K1 & ->). rewrite K1. cbn [mbind res_bind].
      destruct (target_idx_ok S s1 _ K1) as (q1' & Eq1 & B1 & _). injection Eq1 as <-.
      destruct (z_ok S (Tidx q1 TQ) z2 HS) as (m & M & Em & HM & HE & Hd); [by apply leaf_valid|done|]. rewrite Em.
      rewrite (mat_at_fun _ _ _ _ F2 HM). exists (Mat m). split; [done|]. exact HE.
    - destruct (z_ok S (Tidx p TQ) z1 HS) as (n1 & N & En1 & _); [by apply leaf_valid|done|]. cbn [matrix_to] in E1. rewrite En1 in E1. injection E1 as <-.
      cbn [matrix_to] in E2. rewrite E2. cbn [mbind res_bind]. cbn [val] in D1, G1. rewrite apow_inv_mat by lra. cbn [mbind res_bind].
      destruct (z_ok S (Tidx p TQ) z2 HS) as (n2 & N' & En2 & _); [by apply leaf_valid|done|]. rewrite En2 in E2. injection E2 as <-.
      eexists. split; [done|]. cbn [amul val] in G2 |- *. rewrite <- G1, <- G2, mmul_assoc, <- (mmul_assoc n2), minv_l, mmul_I_r by lra. done. }
  exists (val a). fold U. rewrite G1, G2. split; [done|]. split; [done|]. split; [done|]. split; [done|]. split; [done|].
  assert (mmul (val a) (val m1) = val m2) as EA.
  { apply (cancel_r _ _ U); [lra|]. rewrite <- mmul_assoc, G1, G2. done. }
  split; [|split; [done|]].
  - rewrite <- EA, det_mmul in D2. nra.
  - unfold relative_gouy. rewrite Ex. cbn [mbind res_bind]. rewrite E1. cbn [mbind res_bind]. rewrite target_beam_ok by done. cbn [mbind res_bind]. cbv zeta.
    rewrite Ea. cbn [mbind res_bind]. do 2 f_equal. apply gouy_reset.
Qed.
