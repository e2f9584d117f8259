(** Proofs about the waists of a beam layout. *)
From stdpp Require Import base tactics list numbers sorting.
From Coq Require Import Reals Lra Psatz.
From Verif Require Import Fld Py Herm OptRot SigModel SigProofs AlmModel AlmSpec AlmProofs AlmProofs2 AlmProofs3 AlmProofs4 AlmFinal MeaModel MeaSpec MeaProofs MeaFinal.
Local Open Scope R_scope.
Add Field FCM3 : (f_theory C_fld).

(** ** spaces *)
Lemma spaces_node l (e : list nat) (v : R * R) : (e, v) ∈ spaces (Node l) <-> exists i c e', e = i :: e' /\ l !! i = Some c /\ (e', v) ∈ spaces c.
Proof.
  cbn [spaces]. enough (forall k, (e, v) ∈ (fix go (i : nat) (l : list tree) : list (list nat * (R * R)) :=
                 match l with [] => [] | c :: l => map (fun x => (i :: fst x, snd x)) (spaces c) ++ go (S i) l end) k l <->
    exists i c e', e = (k + i)%nat :: e' /\ l !! i = Some c /\ (e', v) ∈ spaces c) as H by apply (H 0%nat).
  induction l as [|c l IH]; intros k.
  - split; [intros H; by apply elem_of_nil in H|]. intros (i & c & p' & _ & H & _). done.
  - rewrite elem_of_app, IH. split.
    + intros [H|(i & d & p' & -> & Hi & Hp)].
      * apply elem_of_list_In, in_map_iff in H as ([e' v'] & E & H). simpl in E. injection E as <- <-. exists 0%nat, c, e'. rewrite Nat.add_0_r. split; [done|]. split; [done|]. by apply elem_of_list_In.
      * exists (S i), d, p'. by rewrite Nat.add_succ_r.
    + intros (i & d & p' & -> & Hi & Hp). destruct i as [|i].
      * left. simpl in Hi. injection Hi as ->. rewrite Nat.add_0_r. apply elem_of_list_In. apply in_map_iff. exists (p', v). split; [done|]. by apply elem_of_list_In.
      * right. exists i, d, p'. rewrite Nat.add_succ_r. done.
Qed.
Lemma spaces_leaf (L n : R) e : forall t, (e, (L, n)) ∈ spaces t <-> leaf_at t e = Ok (Sp L n).
Proof.
  induction e as [|i p IH]; intros t.
  - destruct t as [| | |l]; simpl.
    + split; [intros H; by apply elem_of_nil in H|done].
    + rewrite elem_of_list_singleton. split; [by intros [= -> ->]|by intros [= -> ->]].
    + split; [intros H; by apply elem_of_nil in H|done].
    + split; [|done]. intros H. apply spaces_node in H as (i & c & p' & E & _). done.
  - destruct t as [| | |l]; try (simpl; split; [intros H; by apply elem_of_nil in H|done]).
    + simpl. split; [|done]. intros H. apply elem_of_list_singleton in H. done.
    + rewrite spaces_node. cbn [leaf_at]. unfold lookup_err. split.
      * intros (j & c & p' & E & Hi & Hp). injection E as <- <-. rewrite Hi. simpl. by apply IH.
      * destruct (l !! i) as [c|] eqn:Hi; simpl; [|done]. intros H. apply IH in H. by exists i, c, p.
Qed.
Lemma spaces_nodup t : NoDup (map fst (spaces t)).
Proof.
  induction t as [p e|L n| |l IH] using tree_ind'; cbn [spaces map]; [constructor|apply NoDup_singleton|constructor|].
  enough (forall k, let g := (fix go (i : nat) (l : list tree) : list (list nat * (R * R)) :=
                 match l with [] => [] | c :: l => map (fun x => (i :: fst x, snd x)) (spaces c) ++ go (S i) l end) k l in
    NoDup (map fst g) /\ forall e, e ∈ map fst g -> exists j e', e = j :: e' /\ (k <= j)%nat) as H by apply (H 0%nat).
  induction IH as [|c l Hc _ IH]; intros k; cbv zeta; [split; [constructor|intros e H; by apply elem_of_nil in H]|].
  destruct (IH (S k)) as [H1 H2]. rewrite map_app, map_map. cbn [fst].
  assert (forall e, e ∈ map (fun x : list nat * (R * R) => k :: fst x) (spaces c) -> exists e', e = k :: e') as H3.
  { intros e H. apply elem_of_list_In, in_map_iff in H as (x & <- & _). by eexists. }
  split.
  - apply NoDup_app. split.
    + rewrite <- (map_map fst (cons k)). change (NoDup (cons k <$> map fst (spaces c))). apply NoDup_fmap; [by intros ?? [= ->]|done].
    + split; [|done]. intros e He He'. apply H3 in He as [e' ->]. apply H2 in He' as (j & e'' & [= <- <-] & Hj). lia.
  - intros e He. apply elem_of_app in He as [He|He]; [apply H3 in He as [e' ->]; by exists k, e'|]. destruct (H2 e He) as (j & e' & -> & Hj). exists j, e'. split; [done|lia].
Qed.
Lemma space_valid e L n : forall t, leaf_at t e = Ok (Sp L n) -> valid t e TL /\ valid t e TR.
Proof.
  induction e as [|i p IH]; intros t H; simpl in *; [by injection H as ->|].
  destruct t as [| | |l]; try done. unfold lookup_err in H. destruct (l !! i); simpl in H; [by apply IH|done].
Qed.
Lemma upto_space e L n : forall t, leaf_at t e = Ok (Sp L n) -> upto t e TR = mmul (M2 1 (L / n) 0 1) (upto t e TL).
Proof.
  induction e as [|i p IH]; intros t H; simpl in *; [injection H as ->; simpl; by rewrite mmul_I_r|].
  destruct t as [| | |l]; try done. unfold lookup_err in H. destruct (l !! i); simpl in H; [|done]. rewrite (IH _ H). by rewrite mmul_assoc.
Qed.

(** ** places *)
Lemma pos_step l i p a : target_pos (Node l) (Tidx (i :: p) a) = (c ← lookup_err l i; x ← target_pos c (Tidx p a); Ok (nth i (positions 0 l) 0 + x)).
Proof. done. Qed.
Lemma pos_ok t p a : lengths_ok t -> valid t p a -> exists x, target_pos t (Tidx p a) = Ok x /\ 0 <= x <= width t.
Proof. intros Hl V. destruct (target_pos_lem p (S (length p)) t a) as (x & E & H & _); [lia|done|done|]. by exists x. Qed.
Lemma place_order p : forall t e L n x a b, lengths_ok t -> leaf_at t p = Ok Tgt -> leaf_at t e = Ok (Sp L n) ->
  target_pos t (Tidx p TQ) = Ok x -> target_pos t (Tidx e TL) = Ok a -> target_pos t (Tidx e TR) = Ok b ->
  b = a + L /\ 0 <= L /\ if lexle p e then x <= a else b <= x.
Proof.
  induction p as [|i p IH]; intros t e L n x a b Hl Hp He Ex Ea Eb.
  - simpl in Hp. injection Hp as ->. destruct e; simpl in He; done.
  - destruct t as [| | |l]; try done. destruct e as [|j e]; [done|]. cbn [leaf_at] in Hp, He. rewrite pos_step in Ex, Ea, Eb. unfold lookup_err in *.
    destruct (l !! i) as [c|] eqn:Ei; [|done]. destruct (l !! j) as [c'|] eqn:Ej; [|done]. cbn [mbind res_bind] in *.
    assert (lens l) as Hl' by (by apply lens_foldr). pose proof (lens_lookup _ _ _ Hl' Ei) as Hc. pose proof (lens_lookup _ _ _ Hl' Ej) as Hc'.
    destruct (space_valid _ _ _ _ He) as [V1 V2]. destruct (pos_ok c p TQ Hc) as (x' & Ex' & Hx'); [by apply leaf_valid|].
    destruct (pos_ok c' e TL Hc' V1) as (a' & Ea' & Ha'). destruct (pos_ok c' e TR Hc' V2) as (b' & Eb' & Hb').
    rewrite Ex' in Ex. rewrite Ea' in Ea. rewrite Eb' in Eb. cbn [mbind res_bind] in *. injection Ex as <-. injection Ea as <-. injection Eb as <-.
    assert (i < length l)%nat as Hi by (by eapply lookup_lt_Some). assert (j < length l)%nat as Hj by (by eapply lookup_lt_Some).
    rewrite !positions_nth by lia. pose proof (take_S_W l i c Ei) as W1. pose proof (take_S_W l j c' Ej) as W2.
    assert (b' = a' + L /\ 0 <= L) as [-> HL].
    { clear - He Hc' Ea' Eb'. revert c' a' b' He Hc' Ea' Eb'. induction e as [|k e IHe]; intros c' a' b' He Hc' Ea' Eb'.
      - simpl in He. injection He as ->. simpl in *. unfold target_pos in *. simpl in *. injection Ea' as <-. injection Eb' as <-. lra.
      - destruct c' as [| | |m]; try done. cbn [leaf_at] in He. rewrite pos_step in Ea', Eb'. unfold lookup_err in *. destruct (m !! k) as [d|] eqn:Ek; [|done].
        cbn [mbind res_bind] in *. apply res_inv in Ea' as (a'' & Ea'' & E). injection E as <-. apply res_inv in Eb' as (b'' & Eb'' & E). injection E as <-.
        destruct (IHe d a'' b'' He) as [-> H]; [by eapply lens_lookup; [apply lens_foldr|]|done|done|]. lra. }
    split; [ring|]. split; [done|]. cbn [lexle]. destruct (decide (i < j)%nat) as [Hij|].
    + pose proof (W_take_mono l (S i) j Hl' ltac:(lia)). lra.
    + destruct (decide (j < i)%nat) as [Hij|].
      * pose proof (W_take_mono l (S j) i Hl' ltac:(lia)). lra.
      * assert (j = i) as -> by lia. rewrite Ei in Ej. injection Ej as <-.
        pose proof (IH c e L n x' a' (a' + L) Hc Hp He Ex' Ea' Eb') as (_ & _ & H). destruct (lexle p e); lra.
Qed.

(** ** which target is asked about a space *)
Section ask.
  Context {A : Type}.
  Context (zf : nat -> A -> R).
  Definition asks (first : bool) (ts : list (R * nat)) (z : R) : bool :=
    match ts with [] => false | (z1, _) :: ts => in_range first z1 (fst <$> head ts) z end.
  Fixpoint wpairs (es : list A) (first : bool) (ts : list (R * nat)) : list (nat * A) :=
    match ts with
    | [] => []
    | (z1, s) :: ts' => map (fun e => (s, e)) (List.filter (fun e => asks first ts (zf s e)) es) ++ wpairs es false ts'
    end.
  Fixpoint cnt (first : bool) (ts : list (R * nat)) (e : A) : nat :=
    match ts with [] => 0 | (z1, s) :: ts' => (if asks first ts (zf s e) then 1 else 0) + cnt false ts' e end.
  Lemma wpairs_perm e es ts : forall first,
    map snd (wpairs (e :: es) first ts) ≡ₚ replicate (cnt first ts e) e ++ map snd (wpairs es first ts).
  Proof.
    induction ts as [|[z1 s] ts IH]; intros first; [done|]. cbn [wpairs cnt List.filter].
    destruct (asks first ((z1, s) :: ts) (zf s e)); cbn [map app]; rewrite !map_app, (IH false), !map_map; cbn [snd app map replicate Nat.add].
    - apply Permutation_cons; [done|]. rewrite !app_assoc. apply Permutation_app_tail, Permutation_app_comm.
    - rewrite !app_assoc. apply Permutation_app_tail, Permutation_app_comm.
  Qed.
  Lemma wpairs_nil ts first : wpairs [] first ts = [].
  Proof. revert first. induction ts as [|[z1 s] ts IH]; intros first; [done|]. cbn [wpairs List.filter map app]. apply IH. Qed.
  Lemma wpairs_all es ts first : (forall e, e ∈ es -> cnt first ts e = 1%nat) -> map snd (wpairs es first ts) ≡ₚ es.
  Proof.
    induction es as [|e es IH]; intros H; [by rewrite wpairs_nil|]. rewrite wpairs_perm, (H e) by left. cbn [replicate app]. apply Permutation_cons; [done|].
    apply IH. intros e' He. apply H. by right.
  Qed.
  (** the place asked is the near end of the space *)
  Definition near (a b : R) (e : A) (t : R * nat) : Prop := (zf t.2 e = a /\ t.1 <= a) \/ (zf t.2 e = b /\ b <= t.1).
  Definition zle (t t' : R * nat) : Prop := t.1 <= t'.1.
  Lemma cnt_false a b e ts : a <= b -> Forall (near a b e) ts -> StronglySorted zle ts ->
    cnt false ts e = match ts with [] => 0%nat | t :: _ => if Rlt_dec t.1 (zf t.2 e) then 1%nat else 0%nat end.
  Proof.
    intros Hab. induction ts as [|[z1 s] ts IH]; intros Hn Hs; [done|]. apply Forall_cons in Hn as [N1 Hn]. inversion Hs as [|? ? Hs' Hle]; subst.
    cbn [cnt]. rewrite (IH Hn Hs'). unfold asks, in_range. cbn [orb]. destruct ts as [|[z2 s2] ts]; cbn [head fmap option_fmap option_map fst].
    - cbn. destruct (Rlt_dec z1 (zf s e)); done.
    - apply Forall_cons in Hn as [N2 _]. apply Forall_cons in Hle as [L _]. unfold zle, near in *. cbn [fst snd head fmap option_fmap option_map] in *.
      destruct (Rlt_dec z1 (zf s e)), (Rlt_dec z2 (zf s2 e)); simpl; try destruct (Rle_dec (zf s e) z2); try done; exfalso; lra.
  Qed.
  Lemma cnt_true a b e ts : a <= b -> Forall (near a b e) ts -> StronglySorted zle ts -> ts <> [] -> cnt true ts e = 1%nat.
  Proof.
    intros Hab Hn Hs Hne. destruct ts as [|[z1 s] ts]; [done|]. apply Forall_cons in Hn as [N1 Hn]. inversion Hs as [|? ? Hs' Hle]; subst.
    cbn [cnt]. rewrite (cnt_false a b e ts Hab Hn Hs'). unfold asks, in_range. cbn [orb andb]. destruct ts as [|[z2 s2] ts]; [done|].
    apply Forall_cons in Hn as [N2 _]. apply Forall_cons in Hle as [L _]. unfold zle, near in *. cbn [fst snd head fmap option_fmap option_map] in *.
    destruct (Rle_dec (zf s e) z2), (Rlt_dec z2 (zf s2 e)); simpl; try done; exfalso; lra.
  Qed.
  Lemma wpairs_in es s e ts : forall first, (s, e) ∈ wpairs es first ts -> e ∈ es /\ exists z1, (z1, s) ∈ ts /\
    forall a b, a <= b -> Forall (near a b e) ts -> StronglySorted zle ts ->
      (forall t, t ∈ ts -> ~ (z1 < t.1 < a) /\ ~ (b < t.1 < z1)) /\ (first = false -> z1 < b).
  Proof.
    induction ts as [|[z1 s1] ts IH]; intros first H; [by apply elem_of_nil in H|]. cbn [wpairs] in H. apply elem_of_app in H as [H|H].
    - apply elem_of_list_In, in_map_iff in H as (e' & E & H). injection E as -> ->. apply filter_In in H as [H1 H2]. split; [by apply elem_of_list_In|].
      exists z1. split; [left|]. intros a b Hab Hn Hs. inversion Hs as [|? ? Hs' Hle]; subst. apply Forall_cons in Hn as [N1 Hn]. rewrite Forall_forall in Hle.
      assert (first = false -> z1 < zf s e) as Hf. { intros ->. unfold asks, in_range in H2. cbn [orb] in H2. destruct (Rlt_dec z1 (zf s e)); done. }
      split; [|intros F; specialize (Hf F); unfold near in N1; cbn [fst snd] in N1; lra].
      intros t Ht. apply elem_of_cons in Ht as [->|Ht]; [simpl; lra|]. pose proof (Hle t Ht) as L1. unfold zle in L1. cbn [fst] in L1.
      split; [|lra]. intros [Q1 Q2]. destruct ts as [|[z2 s2] ts]; [by apply elem_of_nil in Ht|].
      assert (z2 <= t.1) as L2. { apply elem_of_cons in Ht as [->|Ht]; [simpl; lra|]. inversion Hs' as [|? ? _ Hle2]; subst. rewrite Forall_forall in Hle2. exact (Hle2 t Ht). }
      unfold asks, in_range in H2. cbn [head fmap option_fmap option_map fst] in H2. apply andb_prop in H2 as [_ H2]. destruct (Rle_dec (zf s e) z2); [|done].
      unfold near in N1. cbn [fst snd] in N1. lra.
    - destruct (IH false H) as (He & z & Hz & Hk). split; [done|]. exists z. split; [by right|]. intros a b Hab Hn Hs. inversion Hs as [|? ? Hs' Hle]; subst.
      apply Forall_cons in Hn as [N1 Hn]. destruct (Hk a b Hab Hn Hs') as [K1 K2]. specialize (K2 eq_refl). split; [|done].
      intros t Ht. apply elem_of_cons in Ht as [->|Ht]; [|by apply K1]. cbn [fst]. rewrite Forall_forall in Hle. pose proof (Hle _ Hz) as L. unfold zle in L. cbn [fst] in L. lra.
  Qed.
End ask.

(** ** sorting *)
Lemma insert_perm a l : insert a l ≡ₚ a :: l.
Proof. induction l as [|b l IH]; simpl; [done|]. destruct (before a b); [done|]. rewrite IH. apply Permutation_swap. Qed.
Lemma sort_perm l : sort l ≡ₚ l.
Proof. induction l as [|a l IH]; simpl; [done|]. by rewrite insert_perm, IH. Qed.
Lemma insert_sorted a l : StronglySorted zle l -> StronglySorted zle (insert a l).
Proof.
  induction l as [|b l IH]; intros H; simpl; [repeat constructor|]. inversion H as [|? ? H1 H2]; subst. destruct (before a b) eqn:E.
  - constructor; [done|]. assert (zle a b) as Hab. { unfold before in E. unfold zle. destruct (Rlt_dec a.1 b.1); [lra|]. destruct (Rlt_dec b.1 a.1); [done|]. lra. }
    constructor; [done|]. eapply Forall_impl; [exact H2|]. intros c Hc. unfold zle in *. lra.
  - constructor; [by apply IH|]. assert (zle b a) as Hba. { unfold before in E. unfold zle. destruct (Rlt_dec a.1 b.1); [done|]. lra. }
    apply Forall_forall. intros c Hc. rewrite insert_perm in Hc. apply elem_of_cons in Hc as [->|Hc]; [done|]. rewrite Forall_forall in H2. by apply H2.
Qed.
Lemma sort_sorted l : StronglySorted zle (sort l).
Proof. induction l as [|a l IH]; simpl; [constructor|]. by apply insert_sorted. Qed.
Lemma unique_in l s : s ∈ unique l <-> s ∈ l.
Proof.
  induction l as [|a l IH]; simpl; [done|]. rewrite !elem_of_cons. destruct (decide (s = a)) as [->|Hs]; [tauto|].
  rewrite <- IH, !elem_of_list_In, filter_In, negb_true_iff, Nat.eqb_neq. tauto.
Qed.

(** ** the data of the spaces *)
Notation entry := (list nat * (R * R))%type.
Notation datum := (R * beam * bool * entry)%type.
Definition dget (S : layout) (s : nat) (e : entry) : datum :=
  match target_idx S s with
  | Ok x => match descmap1 S x e with Ok d => d | Err _ => (0, ex_first, true, e) end
  | Err _ => (0, ex_first, true, e)
  end.
Definition zdat (S : layout) (s : nat) (e : entry) : R := fst (fst (fst (dget S s e))).
Definition posof (S : layout) (s : nat) : R :=
  match target_idx S s with Ok x => match target_pos (tree_of S) x with Ok z => z | Err _ => 0 end | Err _ => 0 end.
Lemma dget_ok S s p e L n : usable S -> target_idx S s = Ok (Tidx p TQ) -> leaf_at (tree_of S) e = Ok (Sp L n) ->
  let x := Tidx e (if lexle p e then TL else TR) in
  exists z q, target_pos (tree_of S) x = Ok z /\ target_q S (Tidx p TQ) (AtIdx x) = Ok q /\
    descmap1 S (Tidx p TQ) (e, (L, n)) = Ok (z, q, lexle p e, (e, (L, n))) /\ dget S s (e, (L, n)) = (z, q, lexle p e, (e, (L, n))).
Proof.
  intros HS Hs He x. pose proof HS as (_ & Ho & Hl & _). destruct (space_valid _ _ _ _ He) as [V1 V2].
  assert (target (tree_of S) x) as V by (unfold x; destruct (lexle p e); done).
  destruct (target_idx_ok S s _ Hs) as (p' & E & Hb & _). injection E as <-.
  destruct (pos_ok (tree_of S) (path x) (at_ x) Hl V) as (z & Ez & _). destruct (target_q_ok S p (AtIdx x) HS Hb V) as (m & M & _ & _ & _ & _ & Eq).
  eexists z, _. change (Tidx (path x) (at_ x)) with x in Ez. split; [done|]. split; [done|].
  assert (descmap1 S (Tidx p TQ) (e, (L, n)) = Ok (z, propagate_matrix (beam_of S p) (val m), lexle p e, (e, (L, n)))) as E.
  { unfold descmap1. cbn [fst path]. cbv zeta. fold x. rewrite Ez. cbn [mbind res_bind]. rewrite Eq. done. }
  split; [done|]. unfold dget. by rewrite Hs, E.
Qed.
Lemma descmap_ok S s p es : usable S -> target_idx S s = Ok (Tidx p TQ) -> (forall e, e ∈ es -> e ∈ spaces (tree_of S)) ->
  descmap S (Tidx p TQ) es = Ok (map (dget S s) es).
Proof.
  intros HS Hs. induction es as [|[e [L n]] es IH]; intros H; [done|]. cbn [descmap map].
  destruct (dget_ok S s p e L n HS Hs) as (z & q & _ & _ & E & E'); [apply spaces_leaf, H; left|]. rewrite E. cbn [mbind res_bind].
  rewrite IH by (intros e' He; apply H; by right). cbn [mbind res_bind]. by rewrite E'.
Qed.
Lemma filter_map_comm {A B} (f : A -> B) (P : B -> bool) l : List.filter P (map f l) = map f (List.filter (fun x => P (f x)) l).
Proof. induction l as [|a l IH]; simpl; [done|]. rewrite IH. by destruct (P (f a)). Qed.
Lemma waist_data_ok S ts : usable S -> (forall t, t ∈ ts -> exists p, target_idx S t.2 = Ok (Tidx p TQ)) -> forall first,
  waist_data S first ts = Ok (map (fun se => dget S se.1 se.2) (wpairs (zdat S) (spaces (tree_of S)) first ts)).
Proof.
  intros HS. induction ts as [|[z1 s] ts IH]; intros H first; [done|]. cbn [waist_data].
  destruct (H (z1, s)) as [p Hp]; [left|]. cbn [snd] in Hp. rewrite Hp. cbn [mbind res_bind].
  rewrite (descmap_ok S s p _ HS Hp) by done. cbn [mbind res_bind]. rewrite IH by (intros t Ht; apply H; by right). cbn [mbind res_bind]. f_equal.
  cbn [wpairs]. rewrite map_app, map_map. f_equal. rewrite filter_map_comm. done.
Qed.
Lemma target_zs_ok S ss : usable S -> (forall s, s ∈ ss -> known S s) -> target_zs S ss = Ok (map (fun s => (posof S s, s)) ss).
Proof.
  intros HS. pose proof HS as (_ & _ & Hl & _). induction ss as [|s ss IH]; intros H; [done|]. cbn [target_zs map].
  destruct (target_idx_known S s (H s ltac:(left))) as [x Ex]. destruct (target_idx_ok S s x Ex) as (p & -> & Hb & _).
  destruct (pos_ok (tree_of S) p TQ Hl) as (z & Ez & _); [by apply leaf_valid|].
  assert (posof S s = z) as -> by (unfold posof; by rewrite Ex, Ez). rewrite Ex. cbn [mbind res_bind]. rewrite Ez. cbn [mbind res_bind].
  rewrite IH by (intros s' Hs'; apply H; by right). done.
Qed.
Definition names (S : layout) : list nat := unique (map (name_of S) (q_targets (tree_of S))).
Definition tlist (S : layout) : list (R * nat) := sort (map (fun s => (posof S s, s)) (names S)).
Lemma names_known S s : s ∈ names S <-> known S s.
Proof.
  unfold names. rewrite unique_in, elem_of_list_In, in_map_iff. split.
  - intros (p & <- & Hp). exists p. split; [|done]. by apply q_targets_leaf, elem_of_list_In.
  - intros (p & Hb & <-). exists p. split; [done|]. apply elem_of_list_In. by apply q_targets_leaf.
Qed.
Lemma beam_targets_ok S : usable S -> beam_targets S = Ok (tlist S).
Proof. intros HS. unfold beam_targets. fold (names S). rewrite target_zs_ok; [done|done|]. intros s. apply names_known. Qed.
Lemma tlist_in S z s : (z, s) ∈ tlist S <-> known S s /\ z = posof S s.
Proof.
  unfold tlist. rewrite sort_perm, elem_of_list_In, in_map_iff. split.
  - intros (s' & E & H). injection E as <- <-. apply elem_of_list_In in H. by rewrite names_known in H.
  - intros [H ->]. exists s. split; [done|]. apply elem_of_list_In. by apply names_known.
Qed.
Lemma stretch_ok S e L n : usable S -> leaf_at (tree_of S) e = Ok (Sp L n) -> exists a b, stretch S e a b.
Proof.
  intros (_ & _ & Hl & _) He. destruct (space_valid _ _ _ _ He) as [V1 V2]. destruct (pos_ok _ _ _ Hl V1) as (a & Ea & _). destruct (pos_ok _ _ _ Hl V2) as (b & Eb & _).
  by exists a, b.
Qed.
Lemma near_ok S e L n a b t : usable S -> leaf_at (tree_of S) e = Ok (Sp L n) -> stretch S e a b -> t ∈ tlist S ->
  a <= b /\ near (zdat S) a b (e, (L, n)) t.
Proof.
  intros HS He [Ea Eb] Ht. destruct t as [z s]. apply tlist_in in Ht as [Hs ->]. pose proof HS as (_ & _ & Hl & _).
  destruct (target_idx_known S s Hs) as [x Ex]. destruct (target_idx_ok S s x Ex) as (p & -> & Hb & _).
  destruct (pos_ok (tree_of S) p TQ Hl) as (z & Ez & _); [by apply leaf_valid|].
  assert (posof S s = z) as -> by (unfold posof; by rewrite Ex, Ez).
  destruct (place_order p _ e L n z a b Hl Hb He Ez Ea Eb) as (H1 & H2 & H3). split; [lra|].
  destruct (dget_ok S s p e L n HS Ex He) as (z' & q & Ez' & _ & _ & Ed). unfold near, zdat. cbn [fst snd]. rewrite Ed. cbn [fst].
  destruct (lexle p e); [left|right]; split; try done; rewrite Ez' in *; congruence.
Qed.

(** ** the waist of one space *)
Lemma mob_space d q : mob (M2 1 d 0 1) q = (fst q + d, snd q).
Proof. rewrite mob_eq; unfold den; cbn [m00 m01 m10 m11]; [|lra]. unfold det. cbn [m00 m01 m10 m11]. f_equal; field. Qed.
Lemma waist_lem S eps s p e L n a b : usable S -> target_idx S s = Ok (Tidx p TQ) -> leaf_at (tree_of S) e = Ok (Sp L n) -> stretch S e a b ->
  exists zw ZR, (forall z r, waist_at S p e z r <-> z = zw /\ r = ZR) /\
    waist_of eps (dget S s (e, (L, n))) =
      let y := if lexle p e then zw - a else b - zw in if Rlt_dec (- eps) y then if Rlt_dec y L then Some (zw, ZR) else None else None.
Proof.
  intros HS Hs He [Ea Eb]. pose proof HS as (_ & Ho & Hl & Hi & Hph). destruct (target_idx_ok S s _ Hs) as (p' & E & Hb & _). injection E as <-.
  destruct (space_valid _ _ _ _ He) as [V1 V2]. destruct (target_q_ok S p (AtIdx (Tidx e TL)) HS Hb V1) as (m & M & _ & K1 & G1 & D & Eq).
  destruct (target_q_ok S p (AtIdx (Tidx e TR)) HS Hb V2) as (m' & M' & _ & K2 & G2 & D' & Eq').
  assert (n <> 0) as Hn. { clear - He Ho. revert He Ho. generalize (tree_of S). induction e as [|i e IH]; intros t He Ho; simpl in He; [by injection He as ->|].
    destruct t as [| | |l]; try done. unfold lookup_err in He. destruct (l !! i) as [c|] eqn:Ei; [|done]. destruct Ho as [_ Ho]. apply oks_foldr in Ho. eapply IH; [done|]. by eapply oks_lookup. }
  simpl in K1, K2. rewrite (upto_space e L n _ He) in K2. assert (val m' = mmul (M2 1 (L / n) 0 1) (val m)) as Em.
  { apply (cancel_r _ _ (upto (tree_of S) p TQ)); [by apply upto_det|]. rewrite G2, <- mmul_assoc, G1, K1, K2. done. }
  set (bl := propagate_matrix (beam_of S p) (val m)) in *. set (br := propagate_matrix (beam_of S p) (val m')) in *.
  assert (value br = (fst (value bl) + L / n, snd (value bl))) as Ebr.
  { unfold br. rewrite Em. destruct (beam_compose (beam_of S p) (val m) (M2 1 (L / n) 0 1) (Hph p) D) as (V & _); [unfold det; simpl; lra|]. rewrite <- V.
    rewrite propagate_value. fold bl. apply mob_space. }
  assert (b = a + L /\ 0 <= L) as [-> HL].
  { destruct (pos_ok (tree_of S) p TQ Hl) as (x & Ex & _); [by apply leaf_valid|]. destruct (place_order p _ e L n x a b Hl Hb He Ex Ea Eb) as (? & ? & _). done. }
  exists (a - fst (value bl) * n), (snd (value bl)). split.
  - intros z r. split.
    + intros (L' & n' & a' & b' & He' & Ea' & Eb' & H). unfold space_at in He'. rewrite He in He'. injection He' as <- <-. rewrite Ea in Ea'. injection Ea' as <-.
      rewrite Eq in Eb'. injection Eb' as <-. rewrite propagate_value, mob_space in H. apply pair_eq_iff in H as [H1 H2]. cbn [fst snd] in H1, H2. split; [|done].
      assert (fst (value bl) * n + (z - a) = 0) as H; [|lra]. transitivity ((fst (value bl) + (z - a) / n) * n); [by field|]. rewrite H1. ring.
    + intros [-> ->]. exists L, n, a, bl. split; [done|]. split; [done|]. split; [done|]. rewrite propagate_value, mob_space. apply pair_eq_iff. cbn [fst snd]. split; [by field|done].
  - destruct (dget_ok S s p e L n HS Hs He) as (z & q & Ez & Eq0 & _ & Ed). rewrite Ed. unfold waist_of, waist_description, b_Z, b_ZR.
    destruct (lexle p e).
    + rewrite Ez in Ea. injection Ea as ->. rewrite Eq in Eq0. injection Eq0 as <-. cbv zeta. replace (a - fst (value bl) * n - a) with (- (fst (value bl) * n)) by ring. done.
    + rewrite Ez in Eb. injection Eb as ->. rewrite Eq' in Eq0. injection Eq0 as <-. cbv zeta. rewrite Ebr. cbn [fst snd].
      replace (a + L - (fst (value bl) + L / n) * n) with (a - fst (value bl) * n) by (by field).
      replace (a + L - (a - fst (value bl) * n)) with ((fst (value bl) + L / n) * n) by (by field). done.
Qed.
