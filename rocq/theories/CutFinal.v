(** Proofs of the theorems of CutProps.v. *)
From stdpp Require Import base tactics list numbers.
From Coq Require Import Reals Lra.
From Verif Require Import Fld Py AlmModel AlmSpec AlmProofs AlmProofs2 CutModel CutSpec CutProofs.
Local Open Scope R_scope.

Lemma last_none e (bl br : option R) : last_edge e bl br = None <-> (if e then bl else br) = None.
Proof. destruct e; simpl; [|done]. by destruct bl. Qed.
Lemma C95_defined_lem n0 e bl br l : ordered l ->
  ((exists r, pairings n0 e bl br l = Ok r) <->
   clear_left bl l /\ clear_right br l /\ (l = [] -> bl = None) /\ (kept bl br l = [] -> (if e then bl else br) = None)).
Proof.
  intros Ho. split.
  - intros [[ps cs] E]. destruct (pairings_ok n0 e bl br l ps cs Ho E) as (H1 & H2 & H3 & _ & [(H4 & H5 & _)|(H4 & _)]).
    + split; [done|]. split; [done|]. split; [done|]. intros _. by apply last_none.
    + done.
  - intros (H1 & H2 & H3 & H4). apply pairings_defined; try done. intros E. by apply last_none, H4.
Qed.
Lemma C95_positions_lem n0 e bl br l ps cs : ordered l -> pairings n0 e bl br l = Ok (ps, cs) ->
  ps = positions 0 cs /\
  exists start, (forall b, (if e then br else bl) = Some b -> start = b) /\
    forall x c, (x, c) ∈ kept bl br l ->
      exists i, cs !! i = Some c /\ ps !! i = Some (if e then start - (x + width c) else x - start).
Proof.
  intros Ho E. destruct (pairings_ok n0 e bl br l ps cs Ho E) as (_ & _ & _ & Hp & [(H4 & _)|(H4 & _ & start & Hs & H)]).
  - split; [done|]. exists (default 0 (if e then br else bl)). split; [by intros b ->|]. rewrite H4. intros x c Hx. by apply elem_of_nil in Hx.
  - split; [done|]. destruct e; simpl in Hs, H.
    + exists (- start). split; [intros b ->; rewrite (Hs (- b)); [ring|done]|]. intros x c Hx.
      destruct (H (- width c - x, c)) as (i & E1 & E2).
      { apply elem_of_list_In, in_map_iff. exists (x, c). split; [done|]. apply (proj1 (in_rev _ _)). by apply elem_of_list_In. }
      exists i. split; [done|]. rewrite E2. simpl. f_equal. ring.
    + exists start. split; [done|]. intros x c Hx. destruct (H (x, c) Hx) as (i & E1 & E2). by exists i.
Qed.
Lemma prod_res e bl br n0 l cs :
  marked (first_edge e bl br) ++ cs ++ marked (last_edge e bl br) = fill0 n0 (tmark (first_edge e bl br) ++ comp_iter e (kept bl br l) ++ tmark (last_edge e bl br)) ->
  prod cs = prod (fill0 n0 (tmark (first_edge e bl br) ++ comp_iter e (kept bl br l) ++ tmark (last_edge e bl br))) /\
  W cs = W (fill0 n0 (tmark (first_edge e bl br) ++ comp_iter e (kept bl br l) ++ tmark (last_edge e bl br))).
Proof. intros E. rewrite <- E. rewrite prod_marked, prod_marked_r, !W_app, !W_marked. split; [done|]. ring. Qed.
Lemma W_fill0 n0 (l : list (R * tree)) x c : W (fill0 n0 ((x, c) :: l)) = fend ((x, c) :: l) 0 - x.
Proof.
  revert x c. induction l as [|[y d] l IH]; intros x c.
  - simpl. unfold fend. simpl. ring.
  - specialize (IH y d). cbn [fill0 fill W foldr width] in IH |- *. rewrite IH. unfold fend. rewrite (last_cons_cons (x, c)). ring.
Qed.
Lemma C95_width_lem n0 e a b l ps cs : ordered l -> pairings n0 e (Some a) (Some b) l = Ok (ps, cs) -> width (Node cs) = b - a.
Proof.
  intros Ho E. destruct (pairings_ok n0 e _ _ l ps cs Ho E) as (_ & _ & _ & _ & [(H4 & H5 & _)|(H4 & H & _)]); [by destruct e|].
  apply prod_res in H as [_ H]. change (width (Node cs)) with (W cs). rewrite H. destruct e; cbn [first_edge last_edge option_map tmark app].
  - rewrite W_fill0, app_comm_cons, (fend_app _ [(- a, Tgt)] 0 0) by done. unfold fend. simpl. ring.
  - rewrite W_fill0, app_comm_cons, (fend_app _ [(b, Tgt)] 0 0) by done. unfold fend. simpl. ring.
Qed.
Lemma comp_iter_app e (l1 l2 : list (R * tree)) : comp_iter e (l1 ++ l2) = if e then comp_iter e l2 ++ comp_iter e l1 else comp_iter e l1 ++ comp_iter e l2.
Proof. destruct e; simpl; [|done]. by rewrite rev_app_distr, map_app. Qed.
Lemma C95_glue_lem n0 e a x b l p1 c1 p2 c2 : ordered l -> le_opt a (Some x) -> le_opt (Some x) b ->
  kept a (Some x) l <> [] -> kept (Some x) b l <> [] ->
  pairings n0 e a (Some x) l = Ok (p1, c1) -> pairings n0 e (Some x) b l = Ok (p2, c2) ->
  exists p c, pairings n0 e a b l = Ok (p, c) /\ width (Node c) = width (Node c1) + width (Node c2) /\
    val (matrix (Node c)) = if e then mmul (val (matrix (Node c1))) (val (matrix (Node c2)))
                            else mmul (val (matrix (Node c2))) (val (matrix (Node c1))).
Proof.
  intros Ho Ha Hb K1 K2 E1 E2.
  destruct (pairings_ok n0 e _ _ l p1 c1 Ho E1) as (L1 & R1 & N1 & _ & [(? & _)|(_ & H1 & _)]); [done|].
  destruct (pairings_ok n0 e _ _ l p2 c2 Ho E2) as (L2 & R2 & N2 & _ & [(? & _)|(_ & H2 & _)]); [done|].
  pose proof (kept_split a x b l Ho R1 Ha Hb) as Es.
  assert (kept a b l <> []) as K by (rewrite Es; intros E; by apply app_nil in E as [? _]).
  destruct (pairings_defined n0 e a b l Ho L1 R2 N1) as [[p c] E]; [done|]. exists p, c. split; [done|].
  destruct (pairings_ok n0 e _ _ l p c Ho E) as (_ & _ & _ & _ & [(? & _)|(_ & H & _)]); [done|].
  apply prod_res in H1 as [P1 W1], H2 as [P2 W2], H as [P W]. rewrite !matrix_node.
  change (width (Node c)) with (AlmProofs2.W c). change (width (Node c1)) with (AlmProofs2.W c1). change (width (Node c2)) with (AlmProofs2.W c2).
  rewrite P, P1, P2, W, W1, W2, Es, comp_iter_app. clear - K1 K2.
  rewrite <- (comp_iter_nil e) in K1, K2. destruct e; cbn [first_edge last_edge tmark option_map].
  - destruct (glue n0 (tmark (option_map Ropp b) ++ comp_iter true (kept (Some x) b l)) (comp_iter true (kept a (Some x) l) ++ tmark (option_map Ropp a)) (- x)) as [G1 G2].
    + intros E. by apply app_nil in E as [_ ?].
    + intros E. by apply app_nil in E as [? _].
    + rewrite <- !app_assoc in G1, G2 |- *. rewrite G1, G2, <- !app_assoc. cbn [app]. split; [ring|done].
  - destruct (glue n0 (tmark a ++ comp_iter false (kept a (Some x) l)) (comp_iter false (kept (Some x) b l) ++ tmark b) x) as [G1 G2].
    + intros E. by apply app_nil in E as [_ ?].
    + intros E. by apply app_nil in E as [? _].
    + rewrite <- !app_assoc in G1, G2 |- *. rewrite G1, G2, <- !app_assoc. cbn [app]. split; [ring|done].
Qed.
Lemma kept_map bl br (f : comp -> tree) (l : list (R * comp)) : kept bl br (map (fun x => (fst x, f (snd x))) l) = map (fun x => (fst x, f (snd x))) (kept bl br l).
Proof. unfold kept. induction l as [|[x c] l IH]; [done|]. cbn [map List.filter fst snd]. rewrite IH. unfold behind_left, before_right. cbn [fst]. by destruct (_ && _). Qed.
Lemma C95_meaning_lem n0 env r bl br l t : ordered (placed n0 (xorb env r) l) -> kept bl br l <> [] -> cut n0 env r bl br l = Ok t ->
  exists cs, t = Node cs /\
    build n0 env (CPlaced r (mark bl ++ kept bl br l ++ mark br)) =
    Node (marked (if xorb env r then br else bl) ++ cs ++ marked (if xorb env r then bl else br)).
Proof.
  intros Ho Hk E. unfold cut in E. apply res_inv in E as ([ps cs] & E & Et). injection Et as <-. exists cs. split; [done|].
  fold (placed n0 (xorb env r) l) in E. destruct (pairings_ok n0 _ _ _ _ ps cs Ho E) as (_ & _ & _ & _ & [(H & _)|(_ & H & _)]).
  { unfold placed in H. rewrite kept_map in H. by apply map_eq_nil in H. }
  unfold placed in H. rewrite kept_map in H. cbn [build]. f_equal. cbn [snd]. rewrite !map_app.
  destruct (xorb env r).
  - assert (forall b, marked (option_map Ropp b) = marked b) as M by (by intros []). cbn [first_edge last_edge] in H. rewrite !M in H. rewrite H. f_equal.
    rewrite !rev_app_distr, <- !app_assoc. unfold comp_iter. rewrite <- !map_rev, map_map. cbn [fst snd]. f_equal; [|f_equal].
    + destruct br; simpl; [|done]. do 2 f_equal. ring.
    + destruct bl; simpl; [|done]. do 2 f_equal. ring.
  - cbn [first_edge last_edge] in H. rewrite H. f_equal. f_equal; [by destruct bl|]. f_equal. by destruct br.
Qed.
Lemma same_widths l l' : Forall2 (fun x y => fst x = fst y /\ width (snd x) = width (snd y)) l l' ->
  (ordered l -> ordered l') /\ (forall b, clear_left b l -> clear_left b l') /\ (forall b, clear_right b l -> clear_right b l').
Proof.
  intros H. split; [|split].
  - induction H as [|[x c] [y d] l l' [E1 E2] H IH]; [done|]. simpl in E1, E2. intros Ho. cbn [ordered] in Ho |- *. destruct Ho as (Hw & Hn & Ho).
    rewrite <- E1, <- E2. split; [done|]. split; [|by apply IH]. destruct H as [|[? ?] [? ?] ? ? [E _]]; [done|]. simpl in E. by rewrite <- E.
  - intros [b|]; [|done]. intros Hc y Hy. apply elem_of_list_lookup in Hy as [i Hi]. destruct (Forall2_lookup_r _ _ _ _ _ H Hi) as (z & Hz & E1 & E2).
    rewrite <- E1, <- E2. apply Hc. by apply elem_of_list_lookup_2 in Hz.
  - intros [b|]; [|done]. intros Hc y Hy. apply elem_of_list_lookup in Hy as [i Hi]. destruct (Forall2_lookup_r _ _ _ _ _ H Hi) as (z & Hz & E1 & E2).
    rewrite <- E1, <- E2. apply Hc. by apply elem_of_list_lookup_2 in Hz.
Qed.
Lemma kept_in bl br (l : list (R * comp)) x : x ∈ kept bl br l -> x ∈ l.
Proof. intros H. apply elem_of_list_In, List.filter_In in H as [H _]. by apply elem_of_list_In. Qed.
Lemma foldr_and (P : comp -> Prop) (l : list (R * comp)) : (forall x, x ∈ l -> P (snd x)) -> foldr (fun c Q => P (snd c) /\ Q) True l.
Proof. induction l as [|x l IH]; intros H; simpl; [done|]. split; [apply H, elem_of_list_here|]. apply IH. intros y Hy. apply H. by apply elem_of_list_further. Qed.
Lemma mark_in b x : x ∈ mark b -> snd x = CTarget.
Proof. destruct b; simpl; intros H; [by apply elem_of_list_singleton in H as ->|by apply elem_of_nil in H]. Qed.
Lemma C95_reversal_lem n0 env r bl br l t ra : n0 <> 0 -> (forall x, x ∈ l -> comp_ok (snd x) /\ no_generic (snd x)) ->
  ordered (placed n0 (xorb env r) l) -> kept bl br l <> [] -> cut n0 env r bl br l = Ok t ->
  exists t', cut n0 (negb env) r bl br l = Ok t' /\ width t' = width t /\
    ray (val (matrix t')) (back (ray (val (matrix t)) ra)) = back ra.
Proof.
  intros Hn Hc Ho Hk E. destruct (C95_meaning_lem _ _ _ _ _ _ _ Ho Hk E) as (cs & -> & B).
  assert (Forall2 (fun x y => fst x = fst y /\ width (snd x) = width (snd y)) (placed n0 (xorb env r) l) (placed n0 (xorb (negb env) r) l)) as F.
  { clear - Hn Hc. rewrite <- negb_xorb_l. generalize (xorb env r). intros e. induction l as [|[x c] l IH]; [constructor|]. simpl. constructor.
    - simpl. split; [done|]. destruct (Hc (x, c) (elem_of_list_here _ _)). by apply build_twin.
    - apply IH. intros y Hy. apply Hc. by apply elem_of_list_further. }
  apply same_widths in F as (F1 & F2 & F3). pose proof (F1 Ho) as Ho'.
  assert (exists t', cut n0 (negb env) r bl br l = Ok t') as [t' E'].
  { unfold cut in E |- *. apply res_inv in E as ([ps cs'] & E & _). destruct (pairings_ok n0 _ _ _ _ _ _ Ho E) as (L1 & R1 & N1 & _).
    assert (forall e, placed n0 e l = [] -> l = []) as Nn by (intros e; apply map_eq_nil).
    destruct (pairings_defined n0 (xorb (negb env) r) bl br (placed n0 (xorb (negb env) r) l) Ho' (F2 _ L1) (F3 _ R1)) as [[p c] E'].
    - intros N. apply Nn in N. apply N1. unfold placed. by rewrite N.
    - unfold placed. rewrite kept_map. intros N. by apply map_eq_nil in N.
    - unfold placed in E'. rewrite E'. by eexists. }
  exists t'. split; [done|]. destruct (C95_meaning_lem _ _ _ _ _ _ _ Ho' Hk E') as (cs' & -> & B').
  assert (twin (build n0 env (CPlaced r (mark bl ++ kept bl br l ++ mark br))) (build n0 (negb env) (CPlaced r (mark bl ++ kept bl br l ++ mark br)))) as T.
  { apply build_twin; [done| |].
    - split; [intros N; apply app_nil in N as [_ N]; by apply app_nil in N as [? _]|]. apply (foldr_and comp_ok). intros x Hx.
      apply elem_of_app in Hx as [Hx|Hx]; [by rewrite (mark_in _ _ Hx)|]. apply elem_of_app in Hx as [Hx|Hx]; [|by rewrite (mark_in _ _ Hx)].
      apply Hc. by apply kept_in in Hx.
    - apply (foldr_and no_generic). intros x Hx.
      apply elem_of_app in Hx as [Hx|Hx]; [by rewrite (mark_in _ _ Hx)|]. apply elem_of_app in Hx as [Hx|Hx]; [|by rewrite (mark_in _ _ Hx)].
      apply Hc. by apply kept_in in Hx. }
  rewrite B, B' in T. destruct T as [Tw Tr]. rewrite !matrix_node, !prod_marked, !prod_marked_r in Tr. rewrite !matrix_node. split.
  - change (width (Node ?x)) with (W x) in Tw |- *. rewrite !W_app, !W_marked in Tw. lra.
  - by apply revof_ray.
Qed.

(** a boundary where a component ends is refused, though nothing is cut *)
Definition two_lenses : list (R * tree) := [(0, Sp 1 1); (2, Thin (ThinLens 1) false)].
Ltac rdec := repeat match goal with |- context [Rle_dec ?a ?b] => destruct (Rle_dec a b); try (exfalso; lra) end.
Lemma C95_end_refuted_lem : exists n0 l b, ordered l /\ kept None (Some b) l <> [] /\ kept (Some b) None l <> [] /\
  (forall x, x ∈ l -> fst x + width (snd x) <= b \/ b <= fst x) /\
  pairings n0 false None (Some b) l = Err NotImplemented /\ pairings n0 false (Some b) None l = Err NotImplemented.
Proof.
  exists 1, two_lenses, 1. unfold two_lenses. split; [simpl; lra|]. unfold kept, behind_left, before_right, pairings. simpl. rdec. simpl. split; [done|]. split; [done|]. split; [|done].
  intros x Hx. apply elem_of_cons in Hx as [->|Hx]; [simpl; lra|]. apply elem_of_list_singleton in Hx as ->. simpl. lra.
Qed.
(** a boundary at a part without length is good on the left and refused on the right *)
Lemma C95_thin_refuted_lem : exists n0 l b, ordered l /\ kept (Some b) None l <> [] /\ (forall x, x ∈ l -> fst x + width (snd x) < b \/ fst x = b /\ width (snd x) = 0) /\
  pairings n0 false None (Some b) l = Err NotImplemented /\ exists r, pairings n0 false (Some b) None l = Ok r.
Proof.
  exists 1, two_lenses, 2. unfold two_lenses. split; [simpl; lra|]. unfold kept, behind_left, before_right, pairings. simpl. rdec. simpl. split; [done|]. split; [|split; [done|by eexists]].
  intros x Hx. apply elem_of_cons in Hx as [->|Hx]; [simpl; lra|]. apply elem_of_list_singleton in Hx as ->. simpl. lra.
Qed.
(** the empty stretch between two components cannot be had *)
Lemma C95_gap_refuted_lem : exists n0 l a b, ordered l /\ clear_left (Some a) l /\ clear_right (Some b) l /\ a < b /\
  pairings n0 false (Some a) (Some b) l = Err TypeError.
Proof.
  exists 1, two_lenses, (5/4), (7/4). unfold two_lenses. split; [simpl; lra|]. split; [|split; [|split; [lra|]]].
  - intros x Hx. apply elem_of_cons in Hx as [->|Hx]; [simpl; lra|]. apply elem_of_list_singleton in Hx as ->. simpl. lra.
  - intros x Hx. apply elem_of_cons in Hx as [->|Hx]; [simpl; lra|]. apply elem_of_list_singleton in Hx as ->. simpl. lra.
  - unfold pairings. simpl. rdec. simpl. rdec. done.
Qed.
Lemma C95_example_lem : exists n0 l a b x t, n0 <> 0 /\ (forall x, x ∈ l -> comp_ok (snd x) /\ no_generic (snd x)) /\
  ordered (placed n0 (xorb false true) l) /\ le_opt (Some a) (Some x) /\ le_opt (Some x) (Some b) /\
  kept (Some a) (Some x) l <> [] /\ kept (Some x) (Some b) l <> [] /\ length (kept (Some a) (Some b) l) <> length l /\
  cut n0 false true (Some a) (Some b) l = Ok t.
Proof.
  exists 1, [(0, CPart false (ThinLens 1)); (1, CSpace 1 2); (3, CPart false (ThinLens 2))], (1/2), 4, (5/2).
  eexists. split; [lra|]. split.
  { intros x Hx. repeat (apply elem_of_cons in Hx as [->|Hx]; [simpl; repeat split; try done; lra|]). by apply elem_of_nil in Hx. }
  unfold kept, behind_left, before_right, placed, cut, pairings. cbn [xorb]. simpl. rdec. simpl. rdec. simpl. repeat split; try lra; try done.
Qed.
Lemma C95_example_glue_lem : exists n0 l a x b p1 p2, ordered l /\ le_opt a (Some x) /\ le_opt (Some x) b /\
  kept a (Some x) l <> [] /\ kept (Some x) b l <> [] /\
  pairings n0 true a (Some x) l = Ok p1 /\ pairings n0 true (Some x) b l = Ok p2.
Proof.
  exists 1, two_lenses, (Some (-1)), (3/2), None. unfold two_lenses, kept, behind_left, before_right, pairings.
  eexists _, _. simpl. rdec. simpl. rdec. simpl. repeat split; try lra; try done.
Qed.
