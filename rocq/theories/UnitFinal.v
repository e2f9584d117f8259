(** Proofs of the theorems of UnitProps.v. *)
From stdpp Require Import base tactics numbers gmap strings list.
From Coq Require Import Qcanon.
From Verif Require Import Fld Py UnitModel UnitSpec UnitProofs.
Local Open Scope fld_scope.

Section props.
Context {K : fld}.
Implicit Types (u : unit_ K) (a b c : pv K).
Add Field FKUP : (f_theory K).

(** a sum or difference has the unit of the left side, adds the amounts, and exists only for
    equal dimensions *)
Lemma C58_add_lem n a b c : ok a -> ok b -> padd n a b = Ok c ->
  (forall k, amount k c = if n then amount k a - amount k b else amount k a + amount k b) /\
  (forall k s, power k c s = power k a s) /\ (forall k s, power k b s = power k a s).
Proof. intros Ha Hb E. by apply (add_lem n a b c). Qed.
Lemma C58_add_defined_lem n v r u v' r' u' : unit_ok u -> unit_ok u' ->
  (forall s, expo (dims u) s = expo (dims u') s) ->
  let s := scale u' / scale u in
  padd n (flat v r u) (flat v' r' u') = Ok (flat (if n then v - v' * s else v + v' * s) (if n then r - r' * s else r + r' * s) u).
Proof.
  intros Hu Hu' H. unfold flat. cbn [padd]. rewrite (rescale_same u' u); [done|done|done|].
  apply map_eq. intros s. specialize (H s). unfold expo in H. destruct Hu as [_ Hu], Hu' as [_ Hu']. specialize (Hu s). specialize (Hu' s).
  destruct (dims u !! s) as [x|], (dims u' !! s) as [y|]; simpl in H; [by f_equal| | |done].
  - by destruct (Hu x eq_refl).
  - by destruct (Hu' y eq_refl).
Qed.
Lemma C58_add_raises_lem n v r u v' r' u' s : unit_ok u -> unit_ok u' -> expo (dims u) s <> expo (dims u') s ->
  padd n (flat v r u) (flat v' r' u') = Err AssertionError.
Proof. intros Hu Hu' H. unfold flat. cbn [padd]. rewrite (rescale_diff u' u); [done|done|done|]. intros E. by rewrite E in H. Qed.
Lemma C58_add_number_lem n v r u x : padd n (flat v r u) (Num x) = Err AttributeError /\ padd n (Num x) (flat v r u) = Err TypeError.
Proof. done. Qed.
Lemma C58_mul_lem a b : (forall k, amount k (pmul a b) = amount k a * amount k b) /\
  (forall k s, power k (pmul a b) s = (power k a s + power k b s)%Z).
Proof. split; intros; [apply amount_mul|apply power_mul]. Qed.
Lemma C58_scale_lem x v r u : pmul (flat v r u) (Num x) = flat (v * x) (r * x) u /\ pmul (Num x) (flat v r u) = flat (x * v) (x * r) u.
Proof. done. Qed.
Lemma C58_neg_lem n a b c : ok a -> ok b -> padd n a b = Ok c ->
  exists d, padd (negb n) a (pneg b) = Ok d /\ forall k, amount k d = amount k c.
Proof.
  revert b c. induction a as [x|v IHv r IHr u]; intros b c Ha Hb E; destruct b as [y|v' r' u']; try done; simpl in E |- *.
  - injection E as <-. eexists. split; [done|]. intros k. simpl. destruct n; simpl; ring.
  - destruct Ha as (Hu & Hv & Hr), Hb as (Hu' & Hv' & Hr'). destruct (rescale u' u) as [s|] eqn:Es; [|done]. cbn [mbind res_bind] in E |- *.
    assert (forall w, pmul (pneg w) (Num s) = pneg (pmul w (Num s))) as Hn.
    { clear. induction w as [x|v IHv r IHr u]; simpl; [f_equal; ring|]. by rewrite IHv, IHr. }
    destruct (padd n v _) as [v2|] eqn:Ev; [|done]. cbn [mbind res_bind] in E. destruct (padd n r _) as [r2|] eqn:Er; [|done]. cbn [mbind res_bind] in E.
    injection E as <-. apply IHv in Ev as (v3 & Ev & Hv3); [|done|by apply ok_mul]. apply IHr in Er as (r3 & Er & Hr3); [|done|by apply ok_mul].
    rewrite !Hn, Ev. cbn [mbind res_bind]. rewrite Er. cbn [mbind res_bind]. eexists. split; [done|]. intros k. simpl. destruct k; [by rewrite Hr3|by rewrite Hv3].
Qed.

(** ** values in the configuration tree *)
Lemma C71_read_lem n u : unit_ok u -> unit_ok (n_units n) -> dims (n_units n) = dims u ->
  exists v r, read n u = Ok (v, r) /\
    (fun x => x * scale u) <$> v = (fun x => x * scale (n_units n)) <$> n_val n /\
    (fun x => x * scale u) <$> r = (fun x => x * scale (n_units n)) <$> (match n_ref n with None => n_val n | Some r => r end).
Proof.
  intros Hu Hn Hd. unfold read. rewrite (rescale_same _ _ Hn Hu Hd). destruct Hu as [Hu _].
  assert (forall x, x * (scale (n_units n) / scale u) * scale u = x * scale (n_units n)) as E by (intros; by field).
  destruct (n_val n) as [v|], (n_ref n) as [[r|]|]; cbn [mbind res_bind times]; eexists _, _; (split; [done|]); simpl; rewrite ?E; done.
Qed.
Lemma C71_two_units_lem n u1 u2 v1 v2 r1 r2 : unit_ok u1 -> unit_ok u2 -> unit_ok (n_units n) ->
  read n u1 = Ok (v1, r1) -> read n u2 = Ok (v2, r2) ->
  (fun x => x * scale u1) <$> v1 = (fun x => x * scale u2) <$> v2 /\ (fun x => x * scale u1) <$> r1 = (fun x => x * scale u2) <$> r2.
Proof.
  intros H1 H2 Hn E1 E2.
  assert (forall u v r, unit_ok u -> read n u = Ok (v, r) -> (v = None /\ r = None) \/ dims (n_units n) = dims u) as G.
  { intros u v r Hu E. destruct (decide (dims (n_units n) = dims u)) as [Hd|Hd]; [by right|]. left. unfold read in E.
    rewrite (rescale_diff _ _ Hn Hu Hd) in E. destruct (n_val n), (n_ref n) as [[]|]; try done; by injection E as <- <-. }
  assert (forall u v r, unit_ok u -> read n u = Ok (v, r) -> n_val n = None /\ match n_ref n with None => n_val n | Some r => r end = None -> v = None /\ r = None) as G'.
  { intros u v r Hu E [Ev Er]. unfold read in E. rewrite Ev in *. destruct (n_ref n) as [[]|]; try done; by injection E as <- <-. }
  assert (forall u v r, unit_ok u -> read n u = Ok (v, r) ->
     (fun x => x * scale u) <$> v = (fun x => x * scale (n_units n)) <$> n_val n /\
     (fun x => x * scale u) <$> r = (fun x => x * scale (n_units n)) <$> (match n_ref n with None => n_val n | Some r => r end)) as G2.
  { intros u v r Hu E. destruct (decide (dims (n_units n) = dims u)) as [Hd|Hd].
    - destruct (C71_read_lem n u Hu Hn Hd) as (v' & r' & E' & H). rewrite E in E'. by injection E' as <- <-.
    - unfold read in E. rewrite (rescale_diff _ _ Hn Hu Hd) in E. destruct (n_val n), (n_ref n) as [[]|]; try done; by injection E as <- <-. }
  destruct (G2 _ _ _ H1 E1) as [-> ->]. destruct (G2 _ _ _ H2 E2) as [-> ->]. done.
Qed.
Lemma C71_raises_lem n u s : unit_ok u -> unit_ok (n_units n) -> expo (dims (n_units n)) s <> expo (dims u) s -> n_val n <> None ->
  read n u = Err AssertionError.
Proof.
  intros Hu Hn H Hv. unfold read. rewrite (rescale_diff _ _ Hn Hu); [|intros E; by rewrite E in H]. by destruct (n_val n), (n_ref n) as [[]|].
Qed.
Lemma C71_inject_lem u x y : unit_ok u ->
  read (inject u x y) u = Ok (Some x, Some y) /\ read (reinject u x) u = Ok (Some x, Some x) /\
  initial u (inject u x y) = Ok y /\ initial u (reinject u x) = Ok x.
Proof.
  intros Hu. unfold read, initial. simpl. rewrite (rescale_same _ _ Hu Hu eq_refl). cbn [mbind res_bind times fmap option_fmap option_map].
  destruct Hu as [Hu _]. assert (forall x, x * (scale u / scale u) = x) as E by (intros; by field). by rewrite !E.
Qed.
Lemma C71_initial_lem u n v r : unit_ok u -> unit_ok (n_units n) -> read n u = Ok (v, Some r) -> initial u n = Ok r.
Proof.
  intros Hu Hn. unfold read, initial. destruct (n_val n) as [x|], (n_ref n) as [[y|]|]; try done;
    (destruct (rescale (n_units n) u) as [s|]; [|done]); cbn [mbind res_bind times fmap option_fmap option_map]; intros E; simplify_eq; done.
Qed.
Lemma C71_setup_unit_lem p u u' x d : unit_ok u -> unit_ok u' -> dims u = dims u' ->
  exists n, setup p [WithUnit u x] d = Ok n /\ read n u' = Ok (Some (x * (scale u / scale u')), Some (x * (scale u / scale u'))).
Proof.
  intros Hu Hu' Hd. eexists. split; [done|]. unfold read. cbn [n_val n_ref n_units]. by rewrite (rescale_same _ _ Hu Hu' Hd).
Qed.
Lemma C71_setup_group_lem p u u' v r same d : unit_ok u -> unit_ok u' -> dims u = dims u' -> (same = true -> r = v) ->
  exists n, setup p [Preferred (Some (v, r, u)) same] d = Ok n /\ read n u' = Ok (Some (v * (scale u / scale u')), Some (r * (scale u / scale u'))).
Proof.
  intros Hu Hu' Hd Hs. eexists. split; [done|]. unfold read. cbn [n_val n_ref n_units]. rewrite (rescale_same _ _ Hu Hu' Hd).
  destruct same; [by rewrite Hs|done].
Qed.
Lemma C71_setup_count_lem (p : unit_ K) l d n : setup p l d = Ok n -> length l <= 1 /\ (l = [] -> d <> None).
Proof. destruct l as [|s [|s' l]]; simpl; [|split; [lia|done]|done]. destruct d; [|done]. intros _. split; [lia|done]. Qed.
End props.

(** the unit of a product is only the unit of its left factor: metre times second cannot be added
    to a metre second *)
Lemma C58_mul_refuted_lem : exists (a b c : pv Qc_fld), ok a /\ ok b /\ ok c /\
  (forall k, amount k (pmul a b) = amount k c) /\ (forall k s, power k (pmul a b) s = power k c s) /\
  padd false (pmul a b) c = Err AssertionError.
Proof.
  set (m := U (f1 : Qc_fld) {[ "m"%string := 1%Z ]}). set (t := U (f1 : Qc_fld) {[ "s"%string := 1%Z ]}).
  set (mt := U (f1 : Qc_fld) (dim_add (dims m) (dims t))).
  assert (f1 <> (f0 : Qc_fld)) as H1 by (intros E; discriminate E).
  exists (flat f1 f1 m), (flat f1 f1 t), (flat f1 f1 mt).
  split; [split; [split; [done|]|done]; apply map_Forall_singleton; done|].
  split; [split; [split; [done|]|done]; apply map_Forall_singleton; done|].
  assert (dims mt = <["m"%string := 1%Z]> {[ "s"%string := 1%Z ]}) as Em by vm_decide.
  assert (unit_ok mt) as Hmt by (split; [done|]; rewrite Em; apply map_Forall_insert_2; [done|]; by apply map_Forall_singleton).
  assert (unit_ok m) as Hm by (split; [done|]; by apply map_Forall_singleton).
  split; [done|].
  split; [intros k; by destruct k|]. split.
  - intros k s. assert (expo (dims mt) s = (expo (dims m) s + expo (dims t) s)%Z) as E by (by apply expo_op). unfold flat. destruct k; simpl in *; rewrite E; lia.
  - unfold flat. cbn [pmul padd]. rewrite (rescale_diff mt m Hmt Hm); [done|]. rewrite Em. intros E. apply (f_equal (lookup "s"%string)) in E. done.
Qed.
Lemma C58_example_lem : exists (u u' w : unit_ Qc_fld) s, unit_ok u /\ unit_ok u' /\ u <> u' /\ dims u = dims u' /\ unit_ok w /\ expo (dims u) s <> expo (dims w) s.
Proof.
  assert (f1 <> (f0 : Qc_fld)) as H1 by (intros E; discriminate E). assert (f1 + f1 <> (f0 : Qc_fld)) as H2 by (intros E; discriminate E).
  exists (U f1 {[ "m"%string := 1%Z ]}), (U (f1 + f1) {[ "m"%string := 1%Z ]}), (U f1 {[ "s"%string := 2%Z ]}), "m"%string.
  split; [split; [done|by apply map_Forall_singleton]|]. split; [split; [done|by apply map_Forall_singleton]|]. split; [intros E; discriminate E|]. split; [done|].
  split; [split; [done|by apply map_Forall_singleton]|]. done.
Qed.
