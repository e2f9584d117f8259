(** Proofs about cutting a system at two boundaries. *)
From stdpp Require Import base tactics list numbers.
From Coq Require Import Reals Lra.
From Verif Require Import Fld Py AlmModel AlmSpec AlmProofs AlmProofs2 CutModel CutSpec.
Local Open Scope R_scope.

Lemma ordered_app (l1 l2 : list (R * tree)) : ordered (l1 ++ l2) ->
  ordered l1 /\ ordered l2 /\ forall x y, x ∈ l1 -> y ∈ l2 -> fst x + width (snd x) <= fst y.
Proof.
  induction l1 as [|[x c] l1 IH]; simpl; [intros H; split; [done|]; split; [done|]; intros ? ? E; inversion E|].
  intros (Hw & Hx & Ho). destruct (IH Ho) as (O1 & O2 & H). split; [|split; [done|]].
  - split; [done|]. split; [|done]. by destruct l1 as [|[y d] l1].
  - intros a b Ha Hb. apply elem_of_cons in Ha as [->|Ha]; [|by apply H]. simpl.
    destruct l1 as [|[y d] l1].
    + simpl in Hx. clear -Hx Hb O2. destruct l2 as [|[z e] l2]; [by apply elem_of_nil in Hb|].
      apply elem_of_cons in Hb as [->|Hb]; [done|]. clear -Hx Hb O2. revert z e Hx O2. induction l2 as [|[z' e'] l2 IH]; intros z e Hx O2; [by apply elem_of_nil in Hb|].
      simpl in O2. destruct O2 as (H1 & H2 & O2). apply elem_of_cons in Hb as [->|Hb]; [simpl; lra|].
      apply (IH Hb z' e'); [lra|done].
    + simpl in Hx. assert (y + width d <= fst b) as E; [apply (H (y, d) b); [apply elem_of_list_here|done]|].
      simpl in O1. destruct O1 as (? & _). lra.
Qed.
Lemma ordered_width (l : list (R * tree)) : ordered l -> forall x, x ∈ l -> 0 <= width (snd x).
Proof.
  induction l as [|[x c] l IH]; intros Ho y Hy; [by apply elem_of_nil in Hy|]. simpl in Ho. destruct Ho as (Hw & _ & Ho).
  apply elem_of_cons in Hy as [->|Hy]; [done|by apply IH].
Qed.
Lemma ordered_cons x c (l : list (R * tree)) : ordered ((x, c) :: l) -> 0 <= width c /\ ordered l /\ forall y, y ∈ l -> x + width c <= fst y.
Proof.
  intros H. change ((x, c) :: l) with ([(x, c)] ++ l) in H. pose proof (ordered_app _ _ H) as (O1 & O2 & H').
  split; [by destruct O1|]. split; [done|]. intros y Hy. apply (H' (x, c) y); [apply elem_of_list_here|done].
Qed.
Lemma lscan_ok b (l : list (R * tree)) i : ordered l -> lscan b l = Ok i ->
  Forall (fun x => behind_left (Some b) x = false) (take i l) /\ Forall (fun x => behind_left (Some b) x = true) (drop i l) /\ clear_left (Some b) l.
Proof.
  revert i. induction l as [|[x c] l IH]; intros i Ho E; simpl in E.
  - injection E as <-. simpl. split; [constructor|]. split; [constructor|]. intros y Hy. by apply elem_of_nil in Hy.
  - destruct (ordered_cons _ _ _ Ho) as (Hw & Ho' & Hl). destruct (Rle_dec b x) as [Hb|Hb].
    + injection E as <-. simpl. split; [constructor|].
      assert (forall y, y ∈ (x, c) :: l -> b <= fst y) as H.
      { intros y Hy. apply elem_of_cons in Hy as [->|Hy]; [done|]. pose proof (Hl y Hy). lra. }
      split; [|intros y Hy; left; by apply H]. apply Forall_forall. intros y Hy. unfold behind_left. destruct (Rle_dec b (fst y)) as [|N]; [done|]. by destruct (N (H y Hy)).
    + destruct (Rle_dec b (x + width c)) as [|Hc]; [done|]. apply res_inv in E as (j & E & Ei). injection Ei as <-.
      destruct (IH j Ho' E) as (H1 & H2 & H3). simpl. split; [|split; [done|]].
      * constructor; [|done]. unfold behind_left. simpl. by destruct (Rle_dec b x).
      * intros y Hy. apply elem_of_cons in Hy as [->|Hy]; [right; simpl; lra|by apply H3].
Qed.
Lemma lscan_clear b (l : list (R * tree)) : clear_left (Some b) l -> exists i, lscan b l = Ok i.
Proof.
  induction l as [|[x c] l IH]; intros H; simpl; [by eexists|]. destruct (Rle_dec b x); [by eexists|].
  destruct (Rle_dec b (x + width c)) as [Hc|_].
  - destruct (H (x, c) (elem_of_list_here _ _)); simpl in *; lra.
  - destruct IH as [i ->]; [intros y Hy; apply H; by apply elem_of_list_further|]. by eexists.
Qed.
Lemma rscan_ok b (l : list (R * tree)) : forall k, ordered l -> rscan b (rev l) (length l) = Ok k ->
  Forall (fun x => before_right (Some b) x = true) (take k l) /\ Forall (fun x => before_right (Some b) x = false) (drop k l) /\ clear_right (Some b) l.
Proof.
  induction l as [|[x c] l IH] using rev_ind; intros k Ho E.
  - simpl in E. injection E as <-. simpl. split; [constructor|]. split; [constructor|]. intros y Hy. by apply elem_of_nil in Hy.
  - destruct (ordered_app _ _ Ho) as (Ho' & (Hw & _) & Hl).
    assert (forall y, y ∈ l -> fst y + width (snd y) <= x) as Hx by (intros y Hy; apply (Hl y (x, c) Hy), elem_of_list_here).
    rewrite rev_app_distr in E. simpl in E. rewrite app_length in E. simpl in E.
    destruct (Rle_dec x b) as [Hb|Hb].
    + destruct (Rle_dec b (x + width c)) as [|Hc]; [done|]. injection E as <-.
      assert (forall y, y ∈ l ++ [(x, c)] -> fst y + width (snd y) < b /\ 0 <= width (snd y)) as H.
      { intros y Hy. split; [|by apply (ordered_width _ Ho)]. apply elem_of_app in Hy as [Hy|Hy]; [pose proof (Hx y Hy); lra|].
        apply elem_of_list_singleton in Hy as ->. simpl. lra. }
      rewrite take_ge, drop_ge by (rewrite app_length; simpl; lia). split; [|split; [constructor|]].
      * apply Forall_forall. intros y Hy. destruct (H y Hy). unfold before_right. destruct (Rle_dec (fst y) b) as [|N]; [done|]. lra.
      * intros y Hy. right. by apply H.
    + rewrite Nat.add_sub in E. destruct (IH k Ho' E) as (H1 & H2 & H3).
      assert (k <= length l)%nat as Hk.
      { clear -E. revert E. generalize (rev l). intros r. revert k. generalize (length l). induction r as [|[y d] r IHr]; intros n k E; simpl in E.
        - injection E as <-. lia.
        - destruct (Rle_dec y b); [destruct (Rle_dec b (y + width d)); [done|]; injection E as <-; lia|]. apply IHr in E. lia. }
      rewrite take_app_le, drop_app_le by done. split; [done|]. split.
      * apply Forall_app. split; [done|]. constructor; [|constructor]. unfold before_right. simpl. by destruct (Rle_dec x b).
      * intros y Hy. apply elem_of_app in Hy as [Hy|Hy]; [by apply H3|]. apply elem_of_list_singleton in Hy as ->. left. simpl. lra.
Qed.
Lemma rscan_clear b (l : list (R * tree)) : forall k, clear_right (Some b) l -> exists i, rscan b l k = Ok i.
Proof.
  induction l as [|[x c] l IH]; intros k H; simpl; [by eexists|]. destruct (Rle_dec x b) as [Hx|].
  - destruct (Rle_dec b (x + width c)) as [Hc|_]; [|by eexists]. destruct (H (x, c) (elem_of_list_here _ _)); simpl in *; lra.
  - apply IH. intros y Hy. apply H. by apply elem_of_list_further.
Qed.
Lemma filter_none {A} (p : A -> bool) (l : list A) : Forall (fun x => p x = false) l -> List.filter p l = [].
Proof. induction 1 as [|x l Hx _ IH]; simpl; [done|]. by rewrite Hx. Qed.
Lemma filter_all {A} (p : A -> bool) (l : list A) : Forall (fun x => p x = true) l -> List.filter p l = l.
Proof. induction 1 as [|x l Hx _ IH]; simpl; [done|]. by rewrite Hx, IH. Qed.
Lemma filter_take {A} (p : A -> bool) (l : list A) k : Forall (fun x => p x = true) (take k l) -> Forall (fun x => p x = false) (drop k l) -> List.filter p l = take k l.
Proof. intros H1 H2. rewrite <- (take_drop k l) at 1. by rewrite List.filter_app, (filter_all _ _ H1), (filter_none _ _ H2), app_nil_r. Qed.
Lemma filter_drop {A} (p : A -> bool) (l : list A) i j : Forall (fun x => p x = false) (take i l) -> Forall (fun x => p x = true) (drop i l) ->
  List.filter p (take j l) = drop i (take j l).
Proof.
  intros H1 H2. rewrite <- (take_drop i (take j l)) at 1. rewrite List.filter_app, filter_none, filter_all; [done| |].
  - rewrite skipn_firstn_comm. by apply Forall_take.
  - rewrite take_take, Nat.min_comm, <- take_take. by apply Forall_take.
Qed.
Lemma filter_and {A} (p q : A -> bool) (l : list A) : List.filter (fun x => p x && q x) l = List.filter p (List.filter q l).
Proof. induction l as [|x l IH]; simpl; [done|]. destruct (q x); simpl; destruct (p x); simpl; by rewrite ?IH. Qed.
Lemma slices_ok bl br (l : list (R * tree)) i j : ordered l -> lslice bl l = Ok i -> rslice br l = Ok j ->
  pyslice i j l = kept bl br l /\ clear_left bl l /\ clear_right br l.
Proof.
  intros Ho Ei Ej. unfold kept. rewrite filter_and. unfold pyslice.
  assert (take (default (length l) j) l = List.filter (before_right br) l /\ clear_right br l) as [E Hr].
  { destruct br as [b|]; simpl in Ej.
    - apply res_inv in Ej as (k & Ek & E). injection E as <-. destruct (rscan_ok b l k Ho Ek) as (H1 & H2 & H3). simpl. split; [|done].
      symmetry. by apply filter_take.
    - injection Ej as <-. simpl. split; [|done]. rewrite take_ge by done. symmetry. apply filter_all. by apply Forall_true. }
  destruct bl as [b|]; simpl in Ei.
  - destruct (decide (length l = 0%nat)); [done|]. apply res_inv in Ei as (k & Ek & E'). injection E' as <-.
    destruct (lscan_ok b l k Ho Ek) as (H1 & H2 & H3). split; [|done]. rewrite <- E. simpl. symmetry. by apply filter_drop.
  - injection Ei as <-. simpl. split; [|done]. rewrite drop_0, E. symmetry. apply filter_all. by apply Forall_true.
Qed.

Definition tmark (b : option R) : list (R * tree) := match b with Some b => [(b, Tgt)] | None => [] end.
Section cut.
  Context (n0 : R).
  Lemma turns_fill (l : list (R * tree)) : forall prev, (turns n0 prev l).1.2 = fill n0 prev l /\ (turns n0 prev l).2 = fend l prev.
  Proof.
    induction l as [|[x c] l IH]; intros prev; simpl; [done|]. destruct (IH (x + width c)) as [E1 E2].
    destruct (turns n0 (x + width c) l) as [[ps cs] e]. simpl in *. rewrite E1. split; [done|]. rewrite E2.
    unfold fend. rewrite last_cons. by destruct (last l).
  Qed.
  Lemma turns_pos (l : list (R * tree)) : forall prev, (turns n0 prev l).1.1 ++ [(turns n0 prev l).2] = positions prev (turns n0 prev l).1.2.
  Proof.
    induction l as [|[x c] l IH]; intros prev; simpl; [done|]. pose proof (IH (x + width c)) as E.
    destruct (turns n0 (x + width c) l) as [[ps cs] e]. simpl in *. replace (prev + (x - prev)) with x by ring. by rewrite E.
  Qed.
  Lemma turns_places (l : list (R * tree)) : forall prev y, y ∈ l ->
    exists i, (turns n0 prev l).1.2 !! i = Some (snd y) /\ (turns n0 prev l).1.1 !! i = Some (fst y).
  Proof.
    induction l as [|[x c] l IH]; intros prev y Hy; [by apply elem_of_nil in Hy|]. pose proof (IH (x + width c) y) as E. simpl.
    destruct (turns n0 (x + width c) l) as [[ps cs] e]. simpl in *. apply elem_of_cons in Hy as [->|Hy].
    - by exists 1%nat.
    - destruct (E Hy) as (i & E1 & E2). exists (S (S i)). done.
  Qed.
  Lemma positions_shift (l : list tree) : forall x d, map (fun p => p - d) (positions x l) = positions (x - d) l.
  Proof. induction l as [|c l IH]; intros x d; simpl; [done|]. rewrite IH. do 2 f_equal. ring. Qed.
  Lemma positions_app (l l' : list tree) : forall x ps e, positions x l = ps ++ [e] -> positions x (l ++ l') = ps ++ positions e l'.
  Proof.
    induction l as [|c l IH]; intros x ps e E; simpl in *.
    - destruct ps as [|p ps]; [by injection E as <-|]. simpl in E. injection E as <- E. by destruct ps.
    - destruct ps as [|p ps]; [simpl in E; injection E as <- E; by destruct l|]. simpl in E. injection E as <- E. simpl. f_equal. by apply IH.
  Qed.
  Lemma turn0_spec edge x c (l : list (R * tree)) : let r := turn0 n0 edge x c l in
    r.1.1 ++ [r.2] = positions (match edge with Some y => y | None => x end) r.1.2 /\
    marked edge ++ r.1.2 = fill0 n0 (tmark edge ++ (x, c) :: l) /\ r.2 = fend ((x, c) :: l) 0 /\
    (forall y, y ∈ (x, c) :: l -> exists i, r.1.2 !! i = Some (snd y) /\ r.1.1 !! i = Some (fst y)).
  Proof.
    unfold turn0. pose proof (turns_fill l (x + width c)) as [F1 F2]. pose proof (turns_pos l (x + width c)) as P.
    pose proof (turns_places l (x + width c)) as Q.
    destruct (turns n0 (x + width c) l) as [[ps cs] e]. simpl in *.
    assert (e = fend ((x, c) :: l) 0) as Ee by (rewrite F2; unfold fend; rewrite last_cons; by destruct (last l)).
    destruct edge as [y|]; cbv zeta; simpl.
    - split; [|split; [|split; [done|]]].
      + replace (y + (x - y)) with x by ring. by rewrite P.
      + rewrite F1. replace (y + 0) with y by ring. done.
      + intros z Hz. apply elem_of_cons in Hz as [->|Hz]; [by exists 1%nat|]. destruct (Q z Hz) as (i & E1 & E2). by exists (S (S i)).
    - split; [by rewrite P|]. split; [by rewrite F1|]. split; [done|].
      intros z Hz. apply elem_of_cons in Hz as [->|Hz]; [by exists 0%nat|]. destruct (Q z Hz) as (i & E1 & E2). by exists (S i).
  Qed.
  Lemma fill0_app (l1 l2 : list (R * tree)) d : l1 <> [] -> fill0 n0 (l1 ++ l2) = fill0 n0 l1 ++ fill n0 (fend l1 d) l2.
  Proof.
    destruct l1 as [|[x c] l1]; [done|]. intros _. simpl. rewrite fill_app. do 2 f_equal. unfold fend. rewrite last_cons. by destruct (last l1).
  Qed.
  Lemma fend_app (l1 l2 : list (R * tree)) d d' : l2 <> [] -> fend (l1 ++ l2) d = fend l2 d'.
  Proof. intros H. unfold fend. rewrite last_app. destruct (last l2) eqn:E; [done|]. by apply last_None in E. Qed.
  Lemma hd_positions (l : list tree) x : hd 0 (positions x l) = x.
  Proof. by destruct l. Qed.

  Lemma comp_iter_nil e (l : list (R * tree)) : comp_iter e l = [] <-> l = [].
  Proof.
    destruct e; simpl; [|done]. split; [|by intros ->]. intros E. apply map_eq_nil in E. apply (f_equal (@rev _)) in E. by rewrite rev_involutive in E.
  Qed.
  (** what comes out, when something is left and when nothing is *)
  Lemma pairings_ok e bl br (l : list (R * tree)) ps cs : ordered l -> pairings n0 e bl br l = Ok (ps, cs) ->
    clear_left bl l /\ clear_right br l /\ (l = [] -> bl = None) /\ ps = positions 0 cs /\
    let it := comp_iter e (kept bl br l) in
    (kept bl br l = [] /\ last_edge e bl br = None /\ cs = [] \/
     kept bl br l <> [] /\
     marked (first_edge e bl br) ++ cs ++ marked (last_edge e bl br) = fill0 n0 (tmark (first_edge e bl br) ++ it ++ tmark (last_edge e bl br)) /\
     exists start, (forall b, first_edge e bl br = Some b -> start = b) /\
       forall y, y ∈ it -> exists i, cs !! i = Some (snd y) /\ ps !! i = Some (fst y - start)).
  Proof.
    intros Ho E. unfold pairings in E. apply res_inv in E as (i & Ei & E). apply res_inv in E as (j & Ej & E).
    destruct (slices_ok bl br l i j Ho Ei Ej) as (Es & Hl & Hr). rewrite Es in E. split; [done|]. split; [done|]. split.
    { intros ->. destruct bl; [|done]. simpl in Ei. done. }
    cbv zeta. destruct (comp_iter e (kept bl br l)) as [|[x c] it] eqn:Eit.
    - apply comp_iter_nil in Eit. destruct (last_edge e bl br); [by destruct (decide _)|]. injection E as <- <-. split; [done|]. by left.
    - assert (kept bl br l <> []) as Hk by (intros N; rewrite N in Eit; destruct e; simpl in Eit; done).
      pose proof (turn0_spec (first_edge e bl br) x c it) as H. cbv zeta in H. destruct (turn0 n0 (first_edge e bl br) x c it) as [[ps0 cs0] e0].
      cbn [fst snd] in H. destruct H as (HP & HF & HE & HQ). 
      set (st := match first_edge e bl br with Some y => y | None => x end) in *.
      assert (forall b, first_edge e bl br = Some b -> st = b) as Hst by (intros b Eb; unfold st; by rewrite Eb).
      destruct (last_edge e bl br) as [z|] eqn:El; injection E as <- <-.
      + assert (ps0 ++ [e0; z] = positions st (cs0 ++ [Sp (z - e0) n0])) as EP.
        { rewrite (positions_app _ _ _ _ _ (eq_sym HP)). simpl. do 2 f_equal. f_equal. ring. }
        split; [|right; split; [done|split]].
        * unfold from_zero. rewrite EP, hd_positions, positions_shift. f_equal. ring.
        * rewrite !app_assoc, HF, <- app_assoc. change (marked (Some z)) with [Tgt]. change (tmark (Some z)) with [(z, Tgt)].
          rewrite (fill0_app _ [(z, Tgt)] 0) by (destruct (first_edge e bl br); done). f_equal.
          rewrite (fend_app (tmark _) ((x, c) :: it) 0 0) by done. cbn [fill app]. by rewrite HE.
        * exists st. split; [done|]. intros y Hy. destruct (HQ y Hy) as (k & E1 & E2). exists k. split.
          -- by apply lookup_app_l_Some.
          -- unfold from_zero. change (map ?f ?l) with (f <$> l). rewrite list_lookup_fmap. erewrite lookup_app_l_Some by exact E2. cbn [fmap option_fmap option_map]. rewrite EP, hd_positions. done.
      + assert (ps0 ++ [e0] = positions st cs0) as EP by done.
        split; [|right; split; [done|split]].
        * unfold from_zero. rewrite EP, hd_positions, positions_shift. f_equal. ring.
        * simpl. rewrite !app_nil_r. done.
        * exists st. split; [done|]. intros y Hy. destruct (HQ y Hy) as (k & E1 & E2). exists k. split; [done|].
          unfold from_zero. change (map ?f ?l) with (f <$> l). rewrite list_lookup_fmap. erewrite lookup_app_l_Some by exact E2. cbn [fmap option_fmap option_map]. rewrite EP, hd_positions. done.
  Qed.
  Lemma pairings_defined e bl br (l : list (R * tree)) : ordered l -> clear_left bl l -> clear_right br l -> (l = [] -> bl = None) ->
    (kept bl br l = [] -> last_edge e bl br = None) -> exists r, pairings n0 e bl br l = Ok r.
  Proof.
    intros Ho Hl Hr H1 H2. unfold pairings.
    assert (exists i, lslice bl l = Ok i) as [i Ei].
    { destruct bl as [b|]; simpl; [|by eexists]. destruct (decide (length l = 0%nat)) as [E|]; [destruct l; [by specialize (H1 eq_refl)|done]|].
      destruct (lscan_clear b l Hl) as [i ->]. by eexists. }
    assert (exists j, rslice br l = Ok j) as [j Ej].
    { destruct br as [b|]; simpl; [|by eexists]. destruct (rscan_clear b (rev l) (length l)) as [j ->]; [|by eexists].
      intros y Hy. apply Hr. apply elem_of_list_In, in_rev, elem_of_list_In. done. }
    rewrite Ei. cbn [mbind res_bind]. rewrite Ej. cbn [mbind res_bind].
    destruct (slices_ok bl br l i j Ho Ei Ej) as (-> & _). destruct (comp_iter e (kept bl br l)) as [|[x c] it] eqn:E.
    - apply comp_iter_nil in E. rewrite (H2 E). by eexists.
    - destruct (turn0 n0 (first_edge e bl br) x c it) as [[ps cs] e']. destruct (last_edge e bl br); by eexists.
  Qed.

  (** gluing *)
  Lemma prod_cons c l : prod (c :: l) = mmul (prod l) (val (matrix c)). Proof. done. Qed.
  Lemma prod_Tgt l : prod (Tgt :: l) = prod l. Proof. rewrite prod_cons. cbn [matrix val]. apply mmul_I_r. Qed.
  Lemma prod_marked b l : prod (marked b ++ l) = prod l. Proof. destruct b; [apply prod_Tgt|done]. Qed.
  Lemma prod_marked_r b l : prod (l ++ marked b) = prod l.
  Proof. rewrite prod_app. destruct b; simpl; [|by rewrite mmul_I_l]. change (M2 1 0 0 1) with I2. by rewrite !mmul_I_l. Qed.
  Lemma W_marked b : W (marked b) = 0. Proof. destruct b; simpl; [ring|done]. Qed.
  Lemma glue (l1 l2 : list (R * tree)) x : l1 <> [] -> l2 <> [] ->
    prod (fill0 n0 (l1 ++ l2)) = mmul (prod (fill0 n0 ((x, Tgt) :: l2))) (prod (fill0 n0 (l1 ++ [(x, Tgt)]))) /\
    W (fill0 n0 (l1 ++ l2)) = W (fill0 n0 ((x, Tgt) :: l2)) + W (fill0 n0 (l1 ++ [(x, Tgt)])).
  Proof.
    intros H1 H2. rewrite !(fill0_app l1 _ 0) by done. destruct l2 as [|[y c] l2]; [done|].
    cbn [fill0 fill app]. cbn [width]. split.
    - rewrite !prod_app, !prod_cons. simpl prod. cbn [matrix val]. change (M2 1 0 0 1) with I2. rewrite !mmul_I_l, !mmul_I_r, !mmul_assoc. f_equal.
      rewrite <- !mmul_assoc. do 2 f_equal. unfold mmul. cbn [m00 m01 m10 m11]. apply m2_eq; unfold Rdiv; ring.
    - rewrite !W_app. cbn [W foldr width]. fold (W (fill n0 (y + width c) l2)). ring.
  Qed.
End cut.
Lemma kept_split a x b (l : list (R * tree)) : ordered l -> clear_right (Some x) l -> le_opt a (Some x) -> le_opt (Some x) b ->
  kept a b l = kept a (Some x) l ++ kept (Some x) b l.
Proof.
  intros Ho Hc Ha Hb. unfold kept. induction l as [|[y c] l IH]; [done|]. destruct (ordered_cons _ _ _ Ho) as (Hw & Ho' & Hl).
  assert (clear_right (Some x) l) as Hc' by (intros z Hz; apply Hc; by apply elem_of_list_further).
  specialize (IH Ho' Hc'). cbn [List.filter]. destruct (Hc (y, c) (elem_of_list_here _ _)) as [Hy|Hy]; simpl in Hy.
  - rewrite (filter_none (fun z => behind_left a z && before_right (Some x) z) l) in IH.
    + assert (before_right (Some x) (y, c) = false) as -> by (unfold before_right; simpl; destruct (Rle_dec y x); [lra|done]).
      assert (behind_left (Some x) (y, c) = true) as -> by (unfold behind_left; simpl; destruct (Rle_dec x y); [done|lra]).
      assert (behind_left a (y, c) = true) as ->.
      { destruct a as [a|]; [|done]. simpl in *. destruct (Rle_dec a y); [done|lra]. }
      rewrite andb_true_l, andb_false_r. cbn [andb]. rewrite (filter_none (fun z => behind_left a z && before_right (Some x) z) l).
      * cbn [app] in IH |- *. destruct (before_right b (y, c)); [by rewrite IH|done].
      * apply Forall_forall. intros z Hz. pose proof (Hl z Hz). assert (before_right (Some x) z = false) as ->; [|by rewrite andb_false_r].
        unfold before_right. destruct (Rle_dec (fst z) x); [lra|done].
    + apply Forall_forall. intros z Hz. pose proof (Hl z Hz). assert (before_right (Some x) z = false) as ->; [|by rewrite andb_false_r].
      unfold before_right. destruct (Rle_dec (fst z) x); [lra|done].
  - assert (before_right (Some x) (y, c) = true) as -> by (unfold before_right; simpl; destruct (Rle_dec y x); [done|lra]).
    assert (behind_left (Some x) (y, c) = false) as -> by (unfold behind_left; simpl; destruct (Rle_dec x y); [lra|done]).
    assert (before_right b (y, c) = true) as ->.
    { destruct b as [b|]; [|done]. simpl in *. destruct (Rle_dec y b); [done|lra]. }
    rewrite !andb_true_r. cbn [andb]. destruct (behind_left a (y, c)); [cbn [app]|]; by rewrite IH.
Qed.
