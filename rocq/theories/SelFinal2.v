(** Proofs of the theorems of SelProps.v about stacks, and the concrete cases. *)
From stdpp Require Import base tactics numbers gmap list fin_maps.
From Verif Require Import Fld Py Herm InjModel InjSpec OptModel SigModel SigSpec PdModel PdProofs SelModel SelSpec SelProofs SelFinal.
Local Open Scope fld_scope.
Add Field FFc : (f_theory C_fld).

Section stack.
  Context {E N A V : Type} `{Countable E} `{Countable N} `{Countable A} `{Countable V}.
  Notation key := (gmap A V).
  Notation sport := (bool * (N * option E))%type.

  Lemma sel_distinct (bk : list (E * key)) (p : N) : NoDup bk.*1 -> distinct (true, (p, None)) (false, (p, None)) (sel_of bk p).
  Proof.
    intros Hnd. unfold distinct, sel_of. rewrite <- !list_fmap_compose.
    assert (Hin : forall (f : E * key -> sport) n, (forall es, f es = (n, (p, Some es.1))) -> NoDup (f <$> bk)).
    { intros f n Hf. rewrite (list_fmap_ext f (fun es => (n, (p, Some es.1))) bk) by (intros; apply Hf).
      change (NoDup ((fun e => (n, (p, Some e))) ∘ fst <$> bk)). rewrite (list_fmap_compose fst (fun e => (n, (p, Some e))) bk). apply NoDup_fmap_2; [intros ? ? [= ?]; done|done]. }
    assert (Hel : forall (f : E * key -> sport) n q, (forall es, f es = (n, (p, Some es.1))) -> q ∈ f <$> bk -> exists e, q = (n, (p, Some e))).
    { intros f n q Hf (es & -> & _)%elem_of_list_fmap. rewrite Hf. eauto. }
    constructor; [|constructor].
    - rewrite elem_of_cons, elem_of_app. intros [[=]|[Hi|Hi]].
      + apply (Hel _ true) in Hi as [e [=]]. by intros [? ?].
      + apply (Hel _ false) in Hi as [e [=]]. by intros [? ?].
    - rewrite elem_of_app. intros [Hi|Hi].
      + apply (Hel _ true) in Hi as [e [=]]. by intros [? ?].
      + apply (Hel _ false) in Hi as [e [=]]. by intros [? ?].
    - apply NoDup_app. split; [|split].
      + apply (Hin _ true). by intros [? ?].
      + intros q Hq Hq'. apply (Hel _ true) in Hq as [e ->]; [|by intros [? ?]]. apply (Hel _ false) in Hq' as [e' [=]]. by intros [? ?].
      + apply (Hin _ false). by intros [? ?].
  Qed.
  Lemma C90_stack_lem (bk : list (E * key)) (ports : list N) have el fin fout ein eout q k : NoDup bk.*1 ->
    stacked true bk ports have el fin fout ein eout -> q ∈ ports ->
    fout q k = fsum (fun es => el es.1 (fun p => part_for es.2 (fin p)) q k) bk.
  Proof.
    intros Hnd [Hsel Hel Hports] Hq. destruct (Hsel q Hq) as (js & x & Es & Hw & Hi & Ho & Hbi & _).
    rewrite <- Ho. rewrite (C90_merges_lem (true, (q, None)) (false, (q, None)) (sel_of bk q) have) by (done || by apply sel_distinct).
    unfold sel_of. rewrite fsum_map. apply fsum_ext. intros [e s] Hes. cbn [b_i fst snd]. rewrite (Hbi e s k Hes), (Hel e q k Hq).
    apply Hports. clear q Hq js x Es Hw Hi Ho Hbi. intros p k' Hp. destruct (Hsel p Hp) as (js & x & Es & Hw & Hi & _ & _ & Hbo).
    rewrite <- (Hbo e s k' Hes).
    assert (Hb : Back (true, (p, Some e)) (false, (p, Some e)) s ∈ sel_of bk p) by (apply elem_of_list_fmap; by exists (e, s)).
    rewrite (C90_splits_lem (true, (p, None)) (false, (p, None)) (sel_of bk p) have js x (Back (true, (p, Some e)) (false, (p, Some e)) s) k') by (done || by apply sel_distinct).
    unfold part_for. cbn [b_key]. by case_decide; rewrite ?Hi.
  Qed.
  Lemma C90_stack_one_lem (bk : list (E * key)) (ports : list N) have el fin fout ein eout q k e s : NoDup bk.*1 ->
    stacked true bk ports have el fin fout ein eout -> q ∈ ports ->
    (forall e f g p, (forall p, f p k = g p k) -> el e f p k = el e g p k) -> (forall e p, el e (fun _ _ => 0) p k = 0) ->
    (e, s) ∈ bk -> shares s k -> (forall e' s', (e', s') ∈ bk -> shares s' k -> e' = e) -> fout q k = el e fin q k.
  Proof.
    intros Hnd Hst Hq Hdiag Hz Hes Hs Hu. rewrite (C90_stack_lem bk ports have el fin fout ein eout q k Hnd Hst Hq).
    clear Hst. induction bk as [|[e1 s1] bk IH]; [by apply elem_of_nil in Hes|]. apply NoDup_cons in Hnd as [Hn Hnd]. cbn [fsum fst snd].
    apply elem_of_cons in Hes as [[= <- <-]|Hes].
    - rewrite (Hdiag e _ fin q) by (intros p; unfold part_for; by rewrite decide_True).
      rewrite (fsum_0 (fun es : E * key => el es.1 (fun p => part_for es.2 (fin p)) q k) bk); [apply cadd_0|].
      intros [e' s'] Hi. cbn [fst snd]. rewrite <- (Hz e' q). apply Hdiag. intros p. unfold part_for. rewrite decide_False; [done|].
      intros Hs'. apply Hn. rewrite <- (Hu e' s'); [|by right|done]. apply elem_of_list_fmap. by exists (e', s').
    - rewrite IH; [|done|done|intros e' s' Hi; apply Hu; by right].
      rewrite (Hdiag e1 _ (fun _ _ => 0) q); [rewrite Hz; apply c0_add|]. intros p. unfold part_for. rewrite decide_False; [done|].
      intros Hs'. apply Hn. rewrite (Hu e1 s1); [|by left|done]. apply elem_of_list_fmap. by exists (e, s).
  Qed.

  Lemma port_check_ok (m : gmap N nat) : port_check m = Ok None.
  Proof.
    unfold port_check. induction (map_to_list m) as [|[p n] l IH]; [done|]. cbn. rewrite decide_True by done. exact IH.
  Qed.
  Lemma optical_dom (els : list (E * list N)) p : is_Some (optical_ports els !! p) <-> exists e ps, (e, ps) ∈ els /\ p ∈ ps.
  Proof.
    assert (G : forall ps (m : gmap N nat), is_Some (foldr (fun p m => <[p := S (default 0%nat (m !! p))]> m) m ps !! p) <-> p ∈ ps \/ is_Some (m !! p)).
    { intros ps m. induction ps as [|a ps IH]; cbn; [split; [auto|intros [?%elem_of_nil|?]; done]|].
      rewrite lookup_insert_is_Some, IH, elem_of_cons. destruct (decide (a = p)) as [->|]; [tauto|]. assert (p <> a) by done. tauto. }
    induction els as [|[e ps] els IH]; cbn.
    - rewrite lookup_empty. split; [intros [? [=]]|intros (? & ? & ?%elem_of_nil & _); done].
    - rewrite G, IH. split.
      + intros [Hp|(e' & ps' & Hi & Hp)]; [exists e, ps|exists e', ps']; (split; [|done]); [by left|by right].
      + intros (e' & ps' & [[= -> ->]|Hi]%elem_of_cons & Hp); [by left|right; eauto].
  Qed.
  Lemma optical_keys (els : list (E * list N)) p : p ∈ (map_to_list (optical_ports els)).*1 <-> exists e ps, (e, ps) ∈ els /\ p ∈ ps.
  Proof.
    rewrite <- optical_dom. split.
    - intros ([p' n] & -> & Hi%elem_of_map_to_list)%elem_of_list_fmap. eauto.
    - intros [n Hn]. apply elem_of_list_fmap. exists (p, n). by rewrite elem_of_map_to_list.
  Qed.

  Definition bond_step (sel : gmap E key) (p : N) (acc : list (N * E)) (el : E * list N) : res (list (N * E)) :=
    if decide (p ∈ el.2) then if decide (is_Some (sel !! el.1)) then Ok (acc ++ [(p, el.1)]) else Err KeyError else Err AttributeError.
  Lemma bonds_inner (sel : gmap E key) p els acc :
    ((forall e ps, (e, ps) ∈ els -> p ∈ ps /\ is_Some (sel !! e)) /\ mfor (bond_step sel p) els acc = Ok (acc ++ ((fun el => (p, el.1)) <$> els))) \/
    ((~ forall e ps, (e, ps) ∈ els -> p ∈ ps /\ is_Some (sel !! e)) /\ exists x, mfor (bond_step sel p) els acc = Err x /\ x <> AssertionError).
  Proof.
    revert acc. induction els as [|[e ps] els IH]; intros acc.
    - left. split; [by intros ? ? ?%elem_of_nil|]. cbn. by rewrite app_nil_r.
    - cbn [mfor]. unfold bond_step at 1 3. cbn [fst snd]. destruct (decide (p ∈ ps)) as [Hp|Hp].
      2: { right. split; [|eauto]. intros Ha. destruct (Ha e ps) as [? _]; [by left|done]. }
      destruct (decide (is_Some (sel !! e))) as [Hs|Hs].
      2: { right. split; [|eauto]. intros Ha. destruct (Ha e ps) as [_ ?]; [by left|done]. }
      destruct (IH (acc ++ [(p, e)])) as [[Ha E1]|[Ha (x & E1 & Hx)]].
      + left. split; [intros e' ps' [[= -> ->]|Hi]%elem_of_cons; eauto|]. rewrite E1. cbn. by rewrite <- app_assoc.
      + right. split; [|eauto]. intros Hb. apply Ha. intros. apply Hb. by right.
  Qed.
  Lemma bonds_outer (sel : gmap E key) els ports acc :
    ((forall p e ps, p ∈ ports -> (e, ps) ∈ els -> p ∈ ps /\ is_Some (sel !! e)) /\
      mfor (fun acc p => mfor (bond_step sel p) els acc) ports acc = Ok (acc ++ (ports ≫= fun p => (fun el => (p, el.1)) <$> els))) \/
    ((~ forall p e ps, p ∈ ports -> (e, ps) ∈ els -> p ∈ ps /\ is_Some (sel !! e)) /\
      exists x, mfor (fun acc p => mfor (bond_step sel p) els acc) ports acc = Err x /\ x <> AssertionError).
  Proof.
    revert acc. induction ports as [|p ports IH]; intros acc.
    - left. split; [by intros ? ? ? ?%elem_of_nil|]. cbn. by rewrite app_nil_r.
    - cbn [mfor]. destruct (bonds_inner sel p els acc) as [[Ha ->]|[Ha (x & -> & Hx)]].
      + destruct (IH (acc ++ ((fun el => (p, el.1)) <$> els))) as [[Hb E1]|[Hb (x & E1 & Hx)]].
        * left. split; [intros p' e ps [->|Hi]%elem_of_cons; eauto|]. rewrite E1. cbn. by rewrite <- app_assoc.
        * right. split; [|eauto]. intros Hc. apply Hb. intros p' e ps Hp. apply Hc. by right.
      + right. split; [|eauto]. intros Hc. apply Ha. intros e ps. apply Hc. by left.
  Qed.
  Lemma C90_build_lem (els : list (E * list N)) (sel : gmap E key) :
    (exists r, stack_build els sel None = Ok r) <->
    (forall p e ps e' ps', (e, ps) ∈ els -> (e', ps') ∈ els -> p ∈ ps -> p ∈ ps' /\ is_Some (sel !! e')).
  Proof.
    unfold stack_build. rewrite port_check_ok. cbn. unfold stack_bonds.
    destruct (bonds_outer sel els (map_to_list (optical_ports els)).*1 []) as [[Ha E1]|[Ha (x & E1 & Hx)]].
    - split; [|intros _; eexists; exact E1]. intros _ p e ps e' ps' Hi1 Hi2 Hp. apply (Ha p e' ps'); [|done]. apply optical_keys. eauto.
    - split; [intros [r E2]; change (mfor (fun acc p => mfor (bond_step sel p) els acc) (map_to_list (optical_ports els)).*1 [] = Ok r) in E2; congruence|].
      intros Hc. exfalso. apply Ha. intros p e ps (e' & ps' & Hi & Hp)%optical_keys Hi2. exact (Hc p e' ps' e ps Hi Hi2 Hp).
  Qed.
  Lemma C90_bonds_lem (els : list (E * list N)) (sel : gmap E key) r p e : stack_build els sel None = Ok r ->
    (p, e) ∈ r <-> exists ps, (e, ps) ∈ els /\ p ∈ ps.
  Proof.
    intros E0. assert (Hall := proj1 (C90_build_lem els sel) (ex_intro _ r E0)). revert E0.
    unfold stack_build. rewrite port_check_ok. cbn. unfold stack_bonds. intros E0.
    destruct (bonds_outer sel els (map_to_list (optical_ports els)).*1 []) as [[Ha E1]|[Ha (x & E1 & Hx)]];
      change (mfor (fun acc p => mfor (bond_step sel p) els acc) (map_to_list (optical_ports els)).*1 [] = Ok r) in E0; [|congruence].
    rewrite E1 in E0. injection E0 as <-. rewrite elem_of_list_bind. split.
    - intros (p' & ([e' ps] & [= -> ->] & Hi)%elem_of_list_fmap & Hp). exists ps. split; [done|]. apply optical_keys in Hp as (e1 & ps1 & Hi1 & Hp). exact (proj1 (Hall p' e1 ps1 e' ps Hi1 Hi Hp)).
    - intros (ps & Hi & Hp). exists p. split; [apply elem_of_list_fmap; by exists (e, ps)|]. apply optical_keys. eauto.
  Qed.
  Lemma C90_check_refuted_lem (els : list (E * list N)) (sel : gmap E key) ps : stack_build els sel ps <> Err AssertionError.
  Proof.
    assert (G : forall ports, stack_bonds els sel ports <> Err AssertionError).
    { intros ports E2. unfold stack_bonds in E2. change (mfor (fun acc p => mfor (bond_step sel p) els acc) ports [] = Err AssertionError) in E2.
      destruct (bonds_outer sel els ports []) as [[Ha E1]|[Ha (x & E1 & Hx)]]; congruence. }
    destruct ps as [ports|]; cbn; [apply G|]. rewrite port_check_ok. apply G.
  Qed.
End stack.

(** A selector with the polarisations 0 and 1 of the entry 7, ports 0 (in) and 1 (out) in front; the keys
    also have an entry 3. *)
Definition ex_key (pol f : nat) : gmap nat nat := {[7%nat := pol; 3%nat := f]}.
Definition ex_bs : list (back (P := nat) (A := nat) (V := nat)) := by_entry 7%nat [((2, 3), 0); ((4, 5), 1)]%nat.
Definition ex_have (p : nat) : list (gmap nat nat) := match p with
  | 0 | 1 => [ex_key 0 0; ex_key 1 0; ex_key 1 1] | 2 | 3 => [ex_key 0 0] | 4 | 5 => [ex_key 1 0; ex_key 1 1] | _ => [] end.
Definition ex_x (n : nat * gmap nat nat) : C_fld := if decide (n.2 ∈ ex_have n.1) then 1 else 0.
Lemma ex_within : within ex_have ex_x.
Proof.
  split.
  - intros p. destruct (decide (p < 6)) as [Hp|Hp].
    + do 6 (destruct p as [|p]; [apply (bool_decide_unpack _); vm_compute; exact Logic.I|]). lia.
    + do 6 (destruct p as [|p]; [lia|]). constructor.
  - intros p k Hk. unfold ex_x. by rewrite decide_False.
Qed.
Lemma ex_distinct : distinct 0%nat 1%nat ex_bs.
Proof. apply (bool_decide_unpack _); vm_compute; exact Logic.I. Qed.
Definition ex_r := match selector true 0%nat 1%nat ex_bs ex_have with Ok r => r | Err _ => [] end.
Lemma ex_sel : selector true 0%nat 1%nat ex_bs ex_have = Ok ex_r.
Proof.
  destruct (proj1 (C90_accepts_lem 0%nat 1%nat ex_bs ex_have (distinct_nodup _ _ _ ex_distinct))) as [_ Ha].
  destruct Ha as [r E]; [|unfold ex_r; by rewrite E].
  intros k Hk. unfold ex_bs. assert (Hp : k !! 7%nat = Some 0%nat \/ k !! 7%nat = Some 1%nat).
  { repeat (apply elem_of_cons in Hk as [->|Hk]); [by left|by right|by right|by apply elem_of_nil in Hk]. }
  destruct Hp as [Hp|Hp].
  - exists (Back 2 3 {[7 := 0]})%nat. apply C90_by_entry_lem; [apply (bool_decide_unpack _); vm_compute; exact Logic.I|]. exists 2%nat, 3%nat, 0%nat. split; [left|done].
  - exists (Back 4 5 {[7 := 1]})%nat. apply C90_by_entry_lem; [apply (bool_decide_unpack _); vm_compute; exact Logic.I|]. exists 4%nat, 5%nat, 1%nat. split; [right; left|done].
Qed.
(** light of both polarisations everywhere, in a stack of two elements, the second of which changes the sign *)
Definition ex_bk : list (nat * gmap nat nat) := [(0, {[7 := 0]}); (1, {[7 := 1]})]%nat.
Definition ex_ks : list (gmap nat nat) := [ex_key 0 0; ex_key 1 0].
Definition ex_el (e : nat) (f : nat -> gmap nat nat -> C_fld) (p : nat) (k : gmap nat nat) : C_fld := (if decide (e = 0%nat) then 1 else - (1)) * f 0%nat k.
Definition ex_fin (p : nat) (k : gmap nat nat) : C_fld := if decide (k ∈ ex_ks) then 1 else 0.
Definition ex_ein (e p : nat) : gmap nat nat -> C_fld := part_for (default ∅ ((list_to_map ex_bk : gmap nat (gmap nat nat)) !! e)) (ex_fin p).
Definition ex_eout (e p : nat) (k : gmap nat nat) : C_fld := ex_el e (ex_ein e) p k.
Definition ex_fout (p : nat) (k : gmap nat nat) : C_fld := fsum (fun es => ex_el es.1 (fun p => part_for es.2 (ex_fin p)) p k) ex_bk.
Lemma ex_stacked : stacked true ex_bk [0%nat] (fun _ => ex_ks) ex_el ex_fin ex_fout ex_ein ex_eout.
Proof.
  assert (Hnd : NoDup ex_bk.*1) by (apply (bool_decide_unpack _); vm_compute; exact Logic.I).
  split.
  - intros p ->%elem_of_list_singleton.
    set (x := fun n : (bool * (nat * option nat)) * gmap nat nat => match n with
      | ((true, (p, None)), k) => ex_fin p k | ((true, (p, Some e)), k) => ex_eout e p k | _ => 0 end : C_fld).
    assert (Hw : within (fun _ => ex_ks) x).
    { split; [intros _; apply (bool_decide_unpack _); vm_compute; exact Logic.I|].
      assert (Hf : forall p k, k ∉ ex_ks -> ex_fin p k = 0) by (intros; unfold ex_fin; by rewrite decide_False).
      intros [[] [p [e|]]] k Hk; cbn [x]; [|by apply Hf|done|done]. unfold x, ex_eout, ex_el, ex_ein, part_for. rewrite (Hf 0%nat k Hk).
      destruct (decide _); destruct (decide _); ring. }
    assert (Hd := sel_distinct ex_bk 0%nat Hnd).
    destruct (proj2 (proj1 (C90_accepts_lem (true, (0%nat, None)) (false, (0%nat, None)) (sel_of ex_bk 0%nat) (fun _ => ex_ks) (distinct_nodup _ _ _ Hd)))) as [js E].
    { intros k Hk. assert (Hc : k !! 7%nat = Some 0%nat \/ k !! 7%nat = Some 1%nat).
      { repeat (apply elem_of_cons in Hk as [->|Hk]); [by left|by right|by apply elem_of_nil in Hk]. }
      destruct Hc as [Hc|Hc].
      - exists (Back (true, (0, Some 0)) (false, (0, Some 0)) {[7 := 0]})%nat. split; [left|]. split; [by apply shares_entry|].
        intros b' Hb Hs. apply elem_of_list_fmap in Hb as ([e s] & -> & Hb). repeat (apply elem_of_cons in Hb as [[= -> ->]|Hb]); [done| |by apply elem_of_nil in Hb].
        apply shares_entry in Hs. congruence.
      - exists (Back (true, (0, Some 1)) (false, (0, Some 1)) {[7 := 1]})%nat. split; [right; left|]. split; [by apply shares_entry|].
        intros b' Hb Hs. apply elem_of_list_fmap in Hb as ([e s] & -> & Hb). repeat (apply elem_of_cons in Hb as [[= -> ->]|Hb]); [|done|by apply elem_of_nil in Hb].
        apply shares_entry in Hs. congruence. }
    exists js, x. split; [exact E|]. split; [exact Hw|]. split; [done|]. split; [|split].
    + intros k. rewrite (C90_merges_lem (true, (0%nat, None)) (false, (0%nat, None)) (sel_of ex_bk 0%nat) (fun _ => ex_ks)) by done.
      unfold sel_of. rewrite fsum_map. apply fsum_ext. intros [e s] Hes. repeat (apply elem_of_cons in Hes as [[= -> ->]|Hes]); [done|done|by apply elem_of_nil in Hes].
    + done.
    + intros e s k Hes.
      assert (Hb : Back (true, (0%nat, Some e)) (false, (0%nat, Some e)) s ∈ sel_of ex_bk 0%nat) by (apply elem_of_list_fmap; by exists (e, s)).
      rewrite (C90_splits_lem (true, (0%nat, None)) (false, (0%nat, None)) (sel_of ex_bk 0%nat) (fun _ => ex_ks) js x (Back (true, (0%nat, Some e)) (false, (0%nat, Some e)) s) k) by done.
      repeat (apply elem_of_cons in Hes as [[= -> ->]|Hes]); [done|done|by apply elem_of_nil in Hes].
  - done.
  - intros e f g Hfg p k. unfold ex_el. rewrite (Hfg 0%nat k); [done|by left].
Qed.

(** light entering at the back S port of a PolSelector *)
Definition ex_P : back (P := nat) (A := nat) (V := nat) := (Back 2 3 {[7 := 0]})%nat.
Definition ex_S : back (P := nat) (A := nat) (V := nat) := (Back 4 5 {[7 := 1]})%nat.
Definition ex_y (n : nat * gmap nat nat) : C_fld := if decide (n = (4%nat, ex_key 1 0)) then 1 else 0.
Lemma ex_pol : exists r, pol_selector 0%nat 1%nat ex_P ex_S ex_have = Ok r.
Proof.
  apply C90_pol_accepts_lem. intros k Hk. repeat (apply elem_of_cons in Hk as [->|Hk]); [left|right|right|by apply elem_of_nil in Hk]; by apply shares_entry.
Qed.
Lemma C90_return_refuted_lem : exists (bP bS : back (P := nat) (A := nat) (V := nat)) have x r k,
  distinct 0%nat 1%nat [bP; bS] /\ within have x /\ pol_selector 0%nat 1%nat bP bS have = Ok r /\ shares (b_key bS) k /\
  x (b_i bS, k) <> 0 /\ x (b_i bP, k) = 0 /\ arrives r x (1%nat, k) = 0.
Proof.
  destruct ex_pol as [r E]. exists ex_P, ex_S, ex_have, ex_y, r, (ex_key 1 0).
  assert (Hw : within ex_have ex_y).
  { split; [apply ex_within|]. intros p k Hk. unfold ex_y. rewrite decide_False; [done|]. intros [= -> ->]. apply Hk. by left. }
  assert (Hd : distinct 0%nat 1%nat [ex_P; ex_S]) by (apply (bool_decide_unpack _); vm_compute; exact Logic.I).
  assert (H0 : ex_y (b_i ex_P, ex_key 1 0) = 0) by (unfold ex_y; by rewrite decide_False).
  split; [done|]. split; [done|]. split; [done|]. split; [by apply shares_entry|]. split; [|split].
  - unfold ex_y. rewrite decide_True by done. apply (F_1_neq_0 (f_theory C_fld)).
  - exact H0.
  - rewrite (C90_pol_returns_lem 0%nat 1%nat ex_P ex_S ex_have r ex_y) by done. rewrite H0. case_decide; apply cadd_0.
Qed.
Lemma C90_entries_refuted_lem : exists (bs : list (back (P := nat) (A := nat) (V := nat))) b k,
  b ∈ bs /\ b_key b ⊆ k /\ (forall b', b' ∈ bs -> b_key b' ⊆ k -> b' = b) /\
  forall fr_i fr_o have, k ∈ have fr_i -> selector true fr_i fr_o bs have = Err AssertionError.
Proof.
  exists [Back 2 3 (ex_key 0 0); Back 4 5 (ex_key 0 1)]%nat, (Back 2 3 (ex_key 0 0))%nat, (ex_key 0 0). split; [left|]. split; [done|]. split.
  - intros b' Hb Hs. repeat (apply elem_of_cons in Hb as [->|Hb]); [done| |by apply elem_of_nil in Hb]. exfalso.
    assert (E : ex_key 0 0 !! 3%nat = Some 1%nat) by (by apply (lookup_weaken (ex_key 0 1)); [|exact Hs]). done.
  - intros fr_i fr_o have Hk. apply C90_accepts_lem.
    + constructor; [intros [=]%elem_of_list_singleton|apply NoDup_singleton].
    + exists (ex_key 0 0). split; [done|]. intros (b & _ & _ & Hu).
      assert (E1 : Back 2 3 (ex_key 0 0) = b) by (apply Hu; [left|]; by exists 7%nat, 0%nat).
      assert (E2 : Back 4 5 (ex_key 0 1) = b) by (apply Hu; [right; left|]; by exists 7%nat, 0%nat). congruence.
Qed.
Lemma ex_closed : exists r, selector_ports true 0%nat 1%nat ex_bs ex_have = Ok r /\ Forall (fun n => n.2 ∈ ex_have n.1) r.
Proof.
  assert (G : match selector_ports true 0%nat 1%nat ex_bs ex_have with Ok r => bool_decide (Forall (fun n => n.2 ∈ ex_have n.1) r) | Err _ => false end = true) by (vm_compute; reflexivity).
  destruct (selector_ports true 0%nat 1%nat ex_bs ex_have) as [r|]; [|done]. exists r. split; [done|]. by apply bool_decide_eq_true in G.
Qed.
Lemma ex_pol_closed : exists r, pol_ports 0%nat 1%nat ex_P ex_S ex_have = Ok r /\ Forall (fun n => n.2 ∈ ex_have n.1) r.
Proof.
  assert (G : match pol_ports 0%nat 1%nat ex_P ex_S ex_have with Ok r => bool_decide (Forall (fun n => n.2 ∈ ex_have n.1) r) | Err _ => false end = true) by (vm_compute; reflexivity).
  destruct (pol_ports 0%nat 1%nat ex_P ex_S ex_have) as [r|]; [|done]. exists r. split; [done|]. by apply bool_decide_eq_true in G.
Qed.
