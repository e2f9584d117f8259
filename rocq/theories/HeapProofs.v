From Coq Require Import Sorting Lia ZifyBool ZifyNat.
From stdpp Require Import base tactics list numbers.
From Verif Require Import Fld Py HeapModel HeapSpec.
Ltac Zify.zify_post_hook ::= Z.div_mod_to_equations.

Section proofs.
  Context {A : Type} (lt : A -> A -> bool) (WO : weak_order lt).
  Notation par j := ((j - 1) / 2).

  Lemma lt_asym x y : lt x y = true -> lt y x = false.
  Proof using WO. apply WO. Qed.
  Lemma nlt_trans x y z : lt x y = false -> lt y z = false -> lt x z = false.
  Proof using WO. apply WO. Qed.
  Lemma nlt_refl x : lt x x = false.
  Proof using WO. destruct (lt x x) eqn:E; [|done]. rewrite <- E. by apply lt_asym. Qed.
  Lemma lt_nlt_trans x y z : lt x y = true -> lt z y = false -> lt z x = false.
  Proof using WO. intros H1 H2. apply (nlt_trans z y x); [done|by apply lt_asym]. Qed.

  (** the pair (j, parent j) is in heap order *)
  Definition okp (h : list A) (j : nat) : Prop :=
    forall x p, h !! j = Some x -> h !! par j = Some p -> lt x p = false.
  Definition heap_from (s : nat) (h : list A) : Prop :=
    forall j, 0 < j -> s <= par j -> okp h j.

  Inductive desc (s : nat) : nat -> Prop :=
  | desc_refl : desc s s
  | desc_step j : 0 < j -> s < j -> desc s (par j) -> desc s j.
  Lemma desc_ge s j : desc s j -> s <= j.
  Proof. induction 1; lia. Qed.

  Lemma swap_perm (v : list A) i j a b : i <> j -> v !! i = Some a -> v !! j = Some b ->
    <[i := b]> (<[j := a]> v) ≡ₚ v.
  Proof.
    intros Hij Hi Hj.
    assert (forall (v : list A) i j a b, i < j -> v !! i = Some a -> v !! j = Some b ->
      <[i := b]> (<[j := a]> v) ≡ₚ v) as G.
    { clear. intros v i j a b Hij Hi Hj.
      rewrite <- (take_drop_middle v i a Hi).
      assert (i < length v) as Hl by (by eapply lookup_lt_Some).
      assert (length (take i v) = i) as Ht by (rewrite take_length; lia).
      set (l1 := take i v) in *. set (l2 := drop (S i) v) in *.
      assert (l2 !! (j - S i) = Some b) as Hb.
      { unfold l2. rewrite lookup_drop. by replace (S i + (j - S i)) with j by lia. }
      rewrite <- (take_drop_middle l2 (j - S i) b Hb).
      assert (j - S i < length l2) as Hl2 by (by eapply lookup_lt_Some).
      set (l3 := take (j - S i) l2) in *. set (l4 := drop (S (j - S i)) l2) in *.
      assert (length l3 = j - S i) as Ht3 by (unfold l3; rewrite take_length; lia).
      rewrite (insert_app_r_alt l1) by lia. replace (j - length l1) with (S (length l3)) by lia.
      change (<[S (length l3) := a]> (a :: l3 ++ b :: l4)) with (a :: <[length l3 := a]> (l3 ++ b :: l4)).
      rewrite (insert_app_r_alt l3), Nat.sub_diag by lia.
      rewrite (insert_app_r_alt l1) by lia. replace (i - length l1) with 0 by lia.
      cbn [insert list_insert].
      apply Permutation_app_head.
      rewrite <- !Permutation_middle. constructor. }
    destruct (decide (i < j)); [by apply G|].
    rewrite list_insert_commute by done. apply G; [lia|done..].
  Qed.

  Lemma ins_ne (v : list A) i j x : i <> j -> <[i := x]> v !! j = v !! j.
  Proof. apply list_lookup_insert_ne. Qed.
  Lemma ins_eq (v : list A) i x : i < length v -> <[i := x]> v !! i = Some x.
  Proof. apply list_lookup_insert. Qed.

  (** sifting towards the root; [v] is the list with the held item in place *)
  Lemma siftdown_loop_ok fuel s : forall pos new h v,
    pos < fuel -> desc s pos -> pos < length h -> v = <[pos := new]> h ->
    (forall j, 0 < j -> s <= par j -> j <> pos -> okp v j) ->
    (forall j x p, s < pos -> 0 < j -> par j = pos -> v !! j = Some x -> v !! par pos = Some p -> lt x p = false) ->
    exists h', siftdown_loop lt fuel s pos new h = Ok h' /\ h' ≡ₚ v /\ length h' = length h /\ heap_from s h'.
  Proof using WO.
    induction fuel as [|fuel IH]; intros pos new h v Hf Hd Hl Hv Hok Hch; [lia|].
    cbn [siftdown_loop]. destruct (decide (s < pos)) as [Hlt|Hge].
    - inversion Hd as [|? Hp Hs Hd']; subst; [lia|].
      assert (par pos < length h) as Hpl by lia.
      destruct (lookup_lt_is_Some_2 h (par pos) Hpl) as [p Hpp].
      unfold l_get. rewrite Hpp. cbn [mbind res_bind].
      assert (<[pos := new]> h !! par pos = Some p) as Hvp by (rewrite ins_ne by lia; done).
      assert (<[pos := new]> h !! pos = Some new) as Hvn by (by rewrite ins_eq).
      destruct (lt new p) eqn:Hnp.
      + destruct (IH (par pos) new (<[pos := p]> h) (<[par pos := new]> (<[pos := p]> h)))
          as (h' & Hr & Hperm & Hlen & Hheap).
        * lia.
        * done.
        * by rewrite insert_length.
        * done.
        * intros j Hj Hsj Hne x q Hx Hq.
          destruct (decide (j = pos)) as [->|Hjp].
          { rewrite ins_ne, ins_eq in Hx by lia. rewrite ins_eq in Hq by (rewrite insert_length; lia).
            injection Hx as <-. injection Hq as <-. by apply lt_asym. }
          rewrite !ins_ne in Hx by lia.
          destruct (decide (par j = par pos)) as [E|Hne2].
          { rewrite E, ins_eq in Hq by (rewrite insert_length; lia). injection Hq as <-.
            assert (lt x p = false) as Hxp.
            { apply (Hok j Hj Hsj Hjp x p); [by rewrite ins_ne by lia|by rewrite E, Hvp]. }
            by apply (lt_nlt_trans new p x). }
          rewrite ins_ne in Hq by lia.
          destruct (decide (par j = pos)) as [E|Hne3].
          { rewrite E, ins_eq in Hq by lia. injection Hq as <-.
            apply (Hch j x p); [lia|lia|done|by rewrite ins_ne by lia|done]. }
          rewrite ins_ne in Hq by lia.
          apply (Hok j Hj Hsj Hjp x q); by rewrite ins_ne by lia.
        * intros j x q Hs' Hj Hpj Hx Hq.
          rewrite !ins_ne in Hq by lia.
          assert (lt p q = false) as Hpq.
          { apply (Hok (par pos)); [lia| |lia|done|by rewrite ins_ne by lia].
            inversion Hd' as [E|? ? ? Hd2]; [lia|]. by apply desc_ge in Hd2. }
          destruct (decide (j = pos)) as [->|Hjp].
          { rewrite ins_ne, ins_eq in Hx by lia. by injection Hx as <-. }
          rewrite !ins_ne in Hx by lia.
          apply (nlt_trans x p q); [|done].
          apply (Hok j Hj); [lia|done|by rewrite ins_ne by lia|by rewrite Hpj].
        * exists h'. split_and!; [done| |by rewrite insert_length in Hlen|done].
          rewrite Hperm.
          assert (<[pos:=p]> h = <[pos := p]> (<[pos:=new]> h)) as -> by (by rewrite list_insert_insert).
          apply (swap_perm (<[pos:=new]> h) (par pos) pos p new); [lia|done|done].
      + exists (<[pos := new]> h). split_and!; [done|done|by rewrite insert_length|].
        intros j Hj Hsj. destruct (decide (j = pos)) as [->|Hne]; [|by apply Hok].
        intros x q Hx Hq. rewrite Hvn in Hx. rewrite Hvp in Hq. injection Hx as <-. injection Hq as <-. done.
    - exists (<[pos := new]> h). subst v. split_and!; [done|done|by rewrite insert_length|].
      intros j Hj Hsj. apply Hok; [done..|]. apply desc_ge in Hd. lia.
  Qed.

  (** sifting towards a leaf *)
  Lemma siftup_loop_ok fuel s : forall pos new h v,
    length h - pos < fuel -> desc s pos -> pos < length h -> v = <[pos := new]> h ->
    (forall j, 0 < j -> s <= par j -> j <> pos -> par j <> pos -> okp v j) ->
    (forall j x p, s < pos -> 0 < j -> par j = pos -> v !! j = Some x -> v !! par pos = Some p -> lt x p = false) ->
    (s < pos -> 0 < pos -> True) ->
    exists pos' h', siftup_loop lt fuel pos new h = Ok (pos', h') /\ h' ≡ₚ v /\ length h' = length h /\
      desc s pos' /\ pos' < length h /\ length h <= 2 * pos' + 1 /\
      (forall j, 0 < j -> s <= par j -> j <> pos' -> okp h' j).
  Proof using WO.
    induction fuel as [|fuel IH]; intros pos new h v Hf Hd Hl Hv Hok Hch Hx0; [lia|].
    cbn [siftup_loop]. destruct (decide (2 * pos + 1 < length h)) as [Hc|Hc].
    - destruct (lookup_lt_is_Some_2 h (2 * pos + 1) Hc) as [c Hcc].
      assert (l_get h (2 * pos + 1) = Ok c) as -> by (unfold l_get; by rewrite Hcc). cbn [mbind res_bind].
      assert (exists k x, (if decide (2 * pos + 1 + 1 < length h) then
                r ← l_get h (2 * pos + 1 + 1);
                Ok (if lt c r then (2 * pos + 1, c) else (2 * pos + 1 + 1, r))
              else Ok (2 * pos + 1, c)) = Ok (k, x) /\ k < length h /\ h !! k = Some x /\
              0 < k /\ par k = pos /\
              (forall j y, 0 < j -> par j = pos -> h !! j = Some y -> lt y x = false)) as (k & x & -> & Hk & Hkx & Hk0 & Hpk & Hmin).
      { destruct (decide (2 * pos + 1 + 1 < length h)) as [Hr|Hr].
        - destruct (lookup_lt_is_Some_2 h _ Hr) as [r Hrr]. unfold l_get. rewrite Hrr. cbn [mbind res_bind].
          destruct (lt c r) eqn:Hlt.
          + exists (2 * pos + 1), c. split_and!; [done|lia|done|lia|lia|].
            intros j y Hj Hpj Hy. assert (j = 2 * pos + 1 \/ j = 2 * pos + 1 + 1) as [->| ->] by lia.
            * rewrite Hcc in Hy. injection Hy as <-. apply nlt_refl.
            * rewrite Hrr in Hy. injection Hy as <-. by apply lt_asym.
          + exists (2 * pos + 1 + 1), r. split_and!; [done|lia|done|lia|lia|].
            intros j y Hj Hpj Hy. assert (j = 2 * pos + 1 \/ j = 2 * pos + 1 + 1) as [->| ->] by lia.
            * rewrite Hcc in Hy. by injection Hy as <-.
            * rewrite Hrr in Hy. injection Hy as <-. apply nlt_refl.
        - exists (2 * pos + 1), c. split_and!; [done|lia|done|lia|lia|].
          intros j y Hj Hpj Hy. assert (j = 2 * pos + 1 \/ j = 2 * pos + 1 + 1) as [->| ->] by lia.
          + rewrite Hcc in Hy. injection Hy as <-. apply nlt_refl.
          + apply lookup_lt_Some in Hy. lia. }
      cbn [mbind res_bind fst snd].
      pose proof (desc_ge _ _ Hd) as Hsp.
      assert (pos < k) as Hpk' by lia.
      destruct (IH k new (<[pos := x]> h) (<[k := new]> (<[pos := x]> h)))
        as (pos' & h' & Hr & Hperm & Hlen & Hrest).
      + rewrite insert_length. lia.
      + apply desc_step; [lia|lia|by rewrite Hpk].
      + by rewrite insert_length.
      + done.
      + intros j Hj Hsj Hne Hne2 y q Hy Hq.
        rewrite ins_ne in Hy by lia. rewrite ins_ne in Hq by lia.
        destruct (decide (j = pos)) as [->|Hjp].
        { rewrite ins_eq in Hy by lia. injection Hy as <-. rewrite ins_ne in Hq by lia.
          apply (Hch k x q); [lia|lia|done|subst v; by rewrite ins_ne by lia|subst v; by rewrite ins_ne by lia]. }
        rewrite ins_ne in Hy by lia.
        destruct (decide (par j = pos)) as [E|Hne3].
        { rewrite E, ins_eq in Hq by lia. injection Hq as <-. by apply (Hmin j y). }
        rewrite ins_ne in Hq by lia.
        apply (Hok j Hj Hsj Hjp Hne3 y q); subst v; by rewrite ins_ne by lia.
      + intros j y q Hs' Hj Hpj Hy Hq. rewrite Hpk in Hq.
        rewrite ins_ne, ins_eq in Hq by lia. injection Hq as <-.
        rewrite !ins_ne in Hy by lia.
        apply (Hok j Hj); [lia|lia|lia|subst v; by rewrite ins_ne by lia|].
        subst v. rewrite Hpj. by rewrite ins_ne by lia.
      + done.
      + exists pos', h'. rewrite insert_length in *. split_and!; try apply Hrest; [done| |done].
        rewrite Hperm. subst v.
        assert (<[pos := x]> h = <[pos := x]> (<[pos:=new]> h)) as -> by (by rewrite list_insert_insert).
        apply (swap_perm (<[pos:=new]> h) k pos x new); [lia| |].
        * by rewrite ins_ne by lia.
        * by rewrite ins_eq.
    - exists pos, (<[pos := new]> h). rewrite insert_length. subst v. split_and!; [done|done|done|done|done|lia|].
      intros j Hj Hsj Hne y q Hy Hq. destruct (decide (par j = pos)) as [E|Hne2].
      + apply lookup_lt_Some in Hy. rewrite insert_length in Hy. lia.
      + by apply (Hok j Hj Hsj Hne Hne2 y q).
  Qed.

  Lemma siftup_ok s h :
    s < length h -> heap_from (S s) h ->
    exists h', siftup lt s h = Ok h' /\ h' ≡ₚ h /\ length h' = length h /\ heap_from s h'.
  Proof using WO.
    intros Hs Hh. unfold siftup. destruct (lookup_lt_is_Some_2 h s Hs) as [new Hn].
    assert (l_get h s = Ok new) as -> by (unfold l_get; by rewrite Hn). cbn [mbind res_bind].
    destruct (siftup_loop_ok (S (length h)) s s new h h) as (pos & h1 & Hr & Hp & Hlen & Hd & Hpl & Hleaf & Hok).
    - lia.
    - constructor.
    - done.
    - by rewrite list_insert_id.
    - intros j Hj Hsj Hne Hne2. apply Hh; lia.
    - lia.
    - done.
    - rewrite Hr. cbn [mbind res_bind fst snd]. unfold siftdown.
      destruct (lookup_lt_is_Some_2 h1 pos) as [y Hy]; [lia|]. assert (l_get h1 pos = Ok y) as -> by (unfold l_get; by rewrite Hy). cbn [mbind res_bind].
      destruct (siftdown_loop_ok (S pos) s pos y h1 h1) as (h2 & Hr2 & Hp2 & Hl2 & Hh2).
      + lia.
      + done.
      + lia.
      + by rewrite list_insert_id.
      + done.
      + intros j x p _ Hj Hpj Hx _. apply lookup_lt_Some in Hx. lia.
      + exists h2. split_and!; [done|by rewrite Hp2|lia|done].
  Qed.

  Lemma heap_from_ge s s' h : s <= s' -> heap_from s h -> heap_from s' h.
  Proof. intros Hs Hh j Hj Hsj. apply Hh; lia. Qed.

  Lemma heapify_ok h : exists h', heapify lt h = Ok h' /\ h' ≡ₚ h /\ heap_from 0 h'.
  Proof using WO.
    unfold heapify.
    assert (forall n h0, 2 * n <= length h0 -> heap_from n h0 ->
      exists h', mfor (fun h i => siftup lt i h) (rev (seq 0 n)) h0 = Ok h' /\ h' ≡ₚ h0 /\ heap_from 0 h') as G.
    { induction n as [|n IH]; intros h0 Hl Hh.
      - cbn. by exists h0.
      - rewrite seq_S, rev_app_distr. cbn [rev app mfor Nat.add].
        destruct (siftup_ok n h0) as (h1 & -> & Hp & Hl1 & Hh1); [lia|done|].
        destruct (IH h1) as (h2 & -> & Hp2 & Hh2); [lia|done|].
        exists h2. split_and!; [done|by rewrite Hp2|done]. }
    apply G; [lia|]. intros j Hj Hsj x p Hx Hp. apply lookup_lt_Some in Hx. lia.
  Qed.

  Lemma heap_least h x : heap_from 0 h -> h !! 0 = Some x -> least lt x h.
  Proof using WO.
    intros Hh Hx y Hy. apply elem_of_list_lookup in Hy as [i Hi]. revert y Hi.
    induction (lt_wf i) as [i _ IH]. intros y Hi.
    destruct (decide (i = 0)) as [->|Hn].
    - rewrite Hx in Hi. injection Hi as <-. apply nlt_refl.
    - assert (par i < length h) as Hl by (apply lookup_lt_Some in Hi; lia).
      destruct (lookup_lt_is_Some_2 h _ Hl) as [p Hp].
      apply (nlt_trans y p x); [|apply (IH (par i)); [lia|done]].
      by apply (Hh i); [lia|lia| |].
  Qed.

  Lemma heappush_ok h x : heap_from 0 h ->
    exists h', heappush lt h x = Ok h' /\ h' ≡ₚ x :: h /\ heap_from 0 h'.
  Proof using WO.
    intros Hh. unfold heappush, siftdown, l_get at 1.
    rewrite lookup_app_r, Nat.sub_diag by lia. cbn [lookup list_lookup mbind res_bind].
    destruct (siftdown_loop_ok (S (length h)) 0 (length h) x (h ++ [x]) (h ++ [x])) as (h2 & Hr2 & Hp2 & Hl2 & Hh2).
    - lia.
    - clear. induction (lt_wf (length h)) as [n _ IH]. destruct n; [constructor|].
      apply desc_step; [lia|lia|]. apply IH. lia.
    - rewrite app_length. cbn. lia.
    - rewrite list_insert_id; [done|]. rewrite lookup_app_r, Nat.sub_diag by lia. done.
    - intros j Hj _ Hne y p Hy Hp.
      assert (j < length h) as Hjl by (apply lookup_lt_Some in Hy; rewrite app_length in Hy; cbn in Hy; lia).
      rewrite lookup_app_l in Hy by done. rewrite lookup_app_l in Hp by lia. by apply (Hh j); [lia|lia| |].
    - intros j y p _ Hj Hpj Hy _. apply lookup_lt_Some in Hy. rewrite app_length in Hy. cbn in Hy. lia.
    - exists h2. split_and!; [done| |done]. rewrite Hp2. by rewrite Permutation_app_comm.
  Qed.

  Lemma root_ok h x : 0 < length h -> heap_from 0 h ->
    exists h', siftup lt 0 (<[0 := x]> h) = Ok h' /\ h' ≡ₚ x :: tail h /\ heap_from 0 h'.
  Proof using WO.
    intros Hl Hh. destruct (siftup_ok 0 (<[0 := x]> h)) as (h' & Hr & Hp & _ & Hh').
    - by rewrite insert_length.
    - intros j Hj Hsj y p Hy Hp. rewrite ins_ne in Hy by lia. rewrite ins_ne in Hp by lia.
      by apply (Hh j); [lia|lia| |].
    - exists h'. split_and!; [done| |done]. rewrite Hp. by destruct h.
  Qed.

  Lemma split_last_none (h : list A) : split_last h = None -> h = [].
  Proof. destruct h; [done|]. cbn. destruct (split_last h) as [[]|]; done. Qed.
  Lemma split_last_some (h i : list A) l : split_last h = Some (i, l) -> h = i ++ [l].
  Proof.
    revert i l. induction h as [|x h IH]; intros i l E; [done|]. cbn in E.
    destruct (split_last h) as [[i' l']|] eqn:E'.
    - injection E as <- <-. by rewrite (IH i' l' eq_refl).
    - injection E as <- <-. by rewrite (split_last_none _ E').
  Qed.

  Lemma heappop_ok h : heap_from 0 h ->
    (h = [] /\ heappop lt h = Err IndexError) \/
    exists x h', heappop lt h = Ok (x, h') /\ h ≡ₚ x :: h' /\ least lt x h /\ heap_from 0 h'.
  Proof using WO.
    intros Hh. unfold heappop. destruct (split_last h) as [[i l]|] eqn:E.
    2: { left. by rewrite (split_last_none _ E). }
    right. apply split_last_some in E as ->.
    destruct i as [|x i].
    - exists l, []. split_and!; [done|done| |].
      + by apply heap_least.
      + intros j Hj _ y p Hy _. by rewrite lookup_nil in Hy.
    - destruct (root_ok (x :: i) l) as (h' & Hr & Hp & Hh'); [cbn; lia| |].
      + intros j Hj Hs y p Hy Hpp. apply (Hh j Hj Hs y p); by apply lookup_app_l_Some.
      + rewrite Hr. cbn [mbind res_bind]. exists x, h'. split_and!; [done| | |done].
        * rewrite Hp. cbn. rewrite Permutation_app_comm. done.
        * by apply heap_least.
  Qed.

  Lemma heapreplace_ok h y : heap_from 0 h ->
    (h = [] /\ heapreplace lt h y = Err IndexError) \/
    exists x rest h', heapreplace lt h y = Ok (x, h') /\ h ≡ₚ x :: rest /\ least lt x h /\
      h' ≡ₚ y :: rest /\ heap_from 0 h'.
  Proof using WO.
    intros Hh. unfold heapreplace. destruct h as [|x h]; [by left|right].
    cbn [l_get lookup list_lookup mbind res_bind].
    destruct (root_ok (x :: h) y) as (h' & Hr & Hp & Hh'); [cbn; lia|done|].
    unfold l_get. cbn [lookup list_lookup mbind res_bind]. rewrite Hr. cbn [mbind res_bind].
    exists x, h, h'. split_and!; [done|done|by apply heap_least|done|done].
  Qed.

  Lemma heappushpop_ok h y : heap_from 0 h ->
    exists x h', heappushpop lt h y = Ok (x, h') /\ y :: h ≡ₚ x :: h' /\ least lt x (y :: h) /\ heap_from 0 h'.
  Proof using WO.
    intros Hh. unfold heappushpop. destruct h as [|x h].
    - exists y, []. split_and!; [done|done| |done]. intros z Hz%elem_of_list_singleton. subst. apply nlt_refl.
    - pose proof (heap_least (x :: h) x Hh eq_refl) as Hleast.
      destruct (lt x y) eqn:Hxy.
      + destruct (root_ok (x :: h) y) as (h' & Hr & Hp & Hh'); [cbn; lia|done|].
        rewrite Hr. cbn [mbind res_bind]. exists x, h'. split_and!; [done| | |done].
        * rewrite Hp. cbn. constructor.
        * intros z Hz. apply elem_of_cons in Hz as [->|Hz]; [by apply lt_asym|by apply Hleast].
      + exists y, (x :: h). split_and!; [done|done| |done].
        intros z Hz. apply elem_of_cons in Hz as [->|Hz]; [apply nlt_refl|].
        apply (nlt_trans z x y); [by apply Hleast|done].
  Qed.

  Lemma pq_step_ok h o : heap_from 0 h ->
    pq_spec lt h o (pq_step lt h o).1 (pq_step lt h o).2 /\ heap_from 0 (pq_step lt h o).2.
  Proof using WO.
    intros Hh. destruct o; cbn [pq_step pq_spec].
    - destruct (heappush_ok h x Hh) as (h' & -> & Hp & Hh'). cbn. done.
    - destruct (heappop_ok h Hh) as [[-> ->]|(x & h' & -> & Hp & Hl & Hh')]; cbn.
      + split; [by left|done].
      + split; [right; by exists x|done].
    - destruct (heapreplace_ok h x Hh) as [[-> ->]|(z & rest & h' & -> & Hp & Hl & Hp' & Hh')]; cbn.
      + split; [by left|done].
      + split; [right; by exists z, rest|done].
    - destruct (heappushpop_ok h x Hh) as (z & h' & -> & Hp & Hl & Hh'). cbn. split; [by exists z|done].
    - destruct h as [|x h]; cbn.
      + split; [by left|done].
      + split; [right; exists x; split_and!; [done|set_solver|by apply heap_least|done]|done].
    - cbn. done.
    - cbn. done.
    - cbn. done.
  Qed.

  Lemma pq_run_ok ops : forall h, heap_from 0 h ->
    pq_history lt h ops (pq_run (pq_step lt) h ops).1 (pq_run (pq_step lt) h ops).2.
  Proof using WO.
    induction ops as [|o ops IH]; intros h Hh; cbn [pq_run].
    - by constructor.
    - destruct (pq_step_ok h o Hh) as [Hs Hh']. destruct (pq_step lt h o) as [out h1].
      specialize (IH h1 Hh'). destruct (pq_run (pq_step lt) h1 ops) as [outs h2]. cbn in *.
      econstructor; done.
  Qed.

  (** the history spec does not depend on the representative of the bag *)
  Lemma pq_spec_perm bag1 bag2 o out bag' : bag1 ≡ₚ bag2 -> pq_spec lt bag1 o out bag' -> pq_spec lt bag2 o out bag'.
  Proof.
    intros Hp. assert (forall x, least lt x bag1 -> least lt x bag2) as Hl.
    { intros x Hl y Hy. apply Hl. by rewrite Hp. }
    assert (bag1 = [] -> bag2 = []) as Hnil.
    { intros ->. by apply Permutation_nil in Hp. }
    assert (bag2 = [] -> bag1 = []) as Hnil'.
    { intros ->. symmetry in Hp. by apply Permutation_nil in Hp. }
    destruct o; cbn [pq_spec].
    - intros [-> ->]. split; [done|by constructor].
    - intros [(-> & -> & ->)|(x & -> & H1 & H2)]; [left; by rewrite Hnil|right].
      exists x. split_and!; [done|by rewrite <- Hp|auto].
    - intros [(-> & -> & ->)|(z & rest & -> & H1 & H2 & H3)]; [left; by rewrite Hnil|right].
      exists z, rest. split_and!; [done|by rewrite <- Hp|auto|done].
    - intros (z & -> & H1 & H2). exists z. split_and!; [done|by rewrite <- Hp|].
      intros y Hy. apply H2. apply elem_of_cons in Hy as [->|Hy]; [left|right; by rewrite Hp].
    - intros [(-> & -> & ->)|(z & -> & H1 & H2 & H3)]; [left; by rewrite Hnil|right].
      exists z. split_and!; [done|by rewrite <- Hp|auto|by rewrite <- Hp].
    - intros [-> ->]. split; [|by rewrite Hp]. f_equal. apply bool_decide_ext. naive_solver.
    - intros [-> ->]. split; [|by rewrite Hp]. f_equal. apply bool_decide_ext. naive_solver.
    - intros [-> ->]. split; [|by rewrite Hp]. f_equal. by apply Permutation_length.
  Qed.
  Lemma pq_history_perm bag1 bag2 ops outs bag' :
    bag1 ≡ₚ bag2 -> pq_history lt bag1 ops outs bag' -> pq_history lt bag2 ops outs bag'.
  Proof.
    intros Hp Hh. inversion Hh; subst.
    - constructor. by etrans.
    - econstructor; [by eapply pq_spec_perm|done].
  Qed.

  Lemma pq_history_ok iterable ops :
    exists h, pq_init lt iterable = Ok h /\
      pq_history lt iterable ops (pq_run (pq_step lt) h ops).1 (pq_run (pq_step lt) h ops).2.
  Proof using WO.
    destruct (heapify_ok iterable) as (h & Hi & Hp & Hh). exists h. split; [done|].
    eapply pq_history_perm; [exact Hp|]. by apply pq_run_ok.
  Qed.

  Lemma drain_ok n : forall h, heap_from 0 h -> n = length h ->
    exists items, pq_run (pq_step lt) h (replicate n Pop) = (Item <$> items, []) /\
      items ≡ₚ h /\ in_order lt items.
  Proof using WO.
    induction n as [|n IH]; intros h Hh Hn.
    - destruct h; [|done]. exists []. split_and!; [done|done|constructor].
    - cbn [replicate pq_run pq_step].
      destruct (heappop_ok h Hh) as [[-> _]|(x & h' & -> & Hp & Hl & Hh')]; [done|].
      cbn [to_empty out_item].
      destruct (IH h') as (items & -> & Hp' & Ho); [done|apply Permutation_length in Hp; cbn in Hp; lia|].
      exists (x :: items). split_and!; [done|by rewrite Hp, Hp'|].
      constructor; [done|]. apply Forall_forall. intros y Hy. apply Hl. rewrite Hp, <- Hp'. by right.
  Qed.

  Lemma drain_sorted iterable ops h outs h' :
    pq_init lt iterable = Ok h -> pq_run (pq_step lt) h ops = (outs, h') ->
    exists items, pq_run (pq_step lt) h' (replicate (length h') Pop) = (Item <$> items, []) /\
      items ≡ₚ h' /\ in_order lt items.
  Proof using WO.
    intros Hi Hr. destruct (heapify_ok iterable) as (h0 & Hi' & Hp & Hh).
    assert (h0 = h) as -> by (unfold pq_init in Hi; congruence).
    apply drain_ok; [|done]. clear Hi Hi' Hp. revert h outs h' Hh Hr.
    induction ops as [|o ops IH]; intros h outs h' Hh Hr; cbn [pq_run] in Hr.
    - by injection Hr as _ <-.
    - destruct (pq_step_ok h o Hh) as [_ Hh1]. destruct (pq_step lt h o) as [out h1].
      destruct (pq_run (pq_step lt) h1 ops) as [outs2 h2] eqn:E. injection Hr as _ <-. by eapply IH.
  Qed.

  Lemma tpq_same h o : (forall x, o <> PushPop x) -> o <> Bool -> o <> Len ->
    tpq_step lt h o = pq_step lt h o.
  Proof. destruct o; try done. intros Hn. by destruct (Hn x). Qed.
  Lemma tpq_run_same ops : forall h,
    Forall (fun o => (forall x, o <> PushPop x) /\ o <> Bool /\ o <> Len) ops ->
    pq_run (tpq_step lt) h ops = pq_run (pq_step lt) h ops.
  Proof.
    induction ops as [|o ops IH]; intros h Hf; [done|]. inversion Hf as [|? ? (H1 & H2 & H3) Hf']; subst.
    cbn [pq_run]. rewrite tpq_same by done. destruct (pq_step lt h o). by rewrite IH.
  Qed.
End proofs.

Lemma tpq_differs {A} (lt : A -> A -> bool) :
  (forall (h : list A) (x : A), (tpq_step lt h (PushPop x)).1 = Raised AttributeError) /\
  (tpq_step lt [] Bool).1 <> (pq_step lt [] Bool).1.
Proof. split; [done|]. cbn. intros [= E]. Qed.
