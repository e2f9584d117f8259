(** Lemmas for UnitProps.v. *)
From stdpp Require Import base tactics numbers gmap strings list.
From Verif Require Import Fld Py UnitModel UnitSpec.
Local Open Scope fld_scope.

Lemma expo_op f d e s : f 0%Z 0%Z = 0%Z -> expo (dim_op f d e) s = f (expo d s) (expo e s).
Proof.
  intros H0. unfold expo, dim_op. rewrite lookup_merge. unfold diag_None, nz.
  destruct (d !! s) as [x|], (e !! s) as [y|]; simpl; try destruct (decide _) as [->|]; simpl; try done; lia.
Qed.
Lemma sub_empty d e : map_Forall (fun _ z => z <> 0%Z) d -> map_Forall (fun _ z => z <> 0%Z) e -> (dim_sub d e = ∅ <-> d = e).
Proof.
  intros Hd He. split.
  - intros H. apply map_eq. intros s. assert (expo (dim_sub d e) s = 0%Z) as E by (by rewrite H; unfold expo; rewrite lookup_empty).
    unfold dim_sub in E. rewrite expo_op in E by done. unfold expo in E. specialize (Hd s). specialize (He s).
    destruct (d !! s) as [x|] eqn:Ex, (e !! s) as [y|] eqn:Ey; simpl in E.
    + f_equal. lia.
    + destruct (Hd x eq_refl). lia.
    + destruct (He y eq_refl). lia.
    + done.
  - intros ->. apply map_eq. intros s. unfold dim_sub, dim_op. rewrite lookup_merge, lookup_empty. unfold diag_None, nz.
    destruct (e !! s) as [y|]; simpl; [|done]. destruct (decide _); [done|lia].
Qed.
Section lem.
  Context {K : fld}.
  Add Field FKU : (f_theory K).
  Implicit Types (u v : unit_ K) (a b c : pv K).
  Lemma rescale_ok u v s : unit_ok u -> unit_ok v -> rescale u v = Ok s -> dims u = dims v /\ s = scale u / scale v.
  Proof.
    intros [_ Hu] [_ Hv]. unfold rescale, udiv. simpl. destruct (decide _) as [E|]; [|done]. intros [= <-].
    split; [|done]. by apply (proj1 (sub_empty (dims u) (dims v) Hu Hv)).
  Qed.
  Lemma rescale_same u v : unit_ok u -> unit_ok v -> dims u = dims v -> rescale u v = Ok (scale u / scale v).
  Proof. intros [_ Hu] [_ Hv] E. unfold rescale, udiv. simpl. rewrite decide_True by (by apply sub_empty). done. Qed.
  Lemma rescale_diff u v : unit_ok u -> unit_ok v -> dims u <> dims v -> rescale u v = Err AssertionError.
  Proof. intros [_ Hu] [_ Hv] E. unfold rescale, udiv. simpl. rewrite decide_False; [done|]. by rewrite sub_empty. Qed.
  Lemma amount_rmul k x a : amount k (rmul x a) = x * amount k a.
  Proof. induction a as [y|v IHv r IHr u]; simpl; [done|]. destruct k; [rewrite IHr|rewrite IHv]; ring. Qed.
  Lemma amount_mul k a b : amount k (pmul a b) = amount k a * amount k b.
  Proof. induction a as [x|v IHv r IHr u]; simpl; [apply amount_rmul|]. destruct k; [rewrite IHr|rewrite IHv]; ring. Qed.
  Lemma power_rmul k x a s : power k (rmul x a) s = power k a s.
  Proof. induction a as [y|v IHv r IHr u]; simpl; [done|]. destruct k; [by rewrite IHr|by rewrite IHv]. Qed.
  Lemma power_mul k a b s : power k (pmul a b) s = (power k a s + power k b s)%Z.
  Proof. induction a as [x|v IHv r IHr u]; simpl; [by rewrite power_rmul|]. destruct k; [rewrite IHr|rewrite IHv]; lia. Qed.
  Lemma amount_neg k a : amount k (pneg a) = - amount k a.
  Proof. induction a as [x|v IHv r IHr u]; simpl; [done|]. destruct k; [rewrite IHr|rewrite IHv]; ring. Qed.
  Lemma power_neg k a s : power k (pneg a) s = power k a s.
  Proof. induction a as [x|v IHv r IHr u]; simpl; [done|]. destruct k; [by rewrite IHr|by rewrite IHv]. Qed.
  Lemma ok_rmul x a : ok a -> ok (rmul x a).
  Proof. induction a as [y|v IHv r IHr u]; simpl; [done|]. intros (? & ? & ?). auto. Qed.
  Lemma ok_mul a b : ok a -> ok b -> ok (pmul a b).
  Proof. intros Ha Hb. induction a as [y|v IHv r IHr u]; simpl in *; [by apply ok_rmul|]. destruct Ha as (? & ? & ?). auto. Qed.
  Lemma add_lem n a : forall b c, ok a -> ok b -> padd n a b = Ok c ->
    ok c /\ (forall k, amount k c = if n then amount k a - amount k b else amount k a + amount k b) /\
    (forall k s, power k c s = power k a s) /\ (forall k s, power k b s = power k a s).
  Proof.
    induction a as [x|v IHv r IHr u]; intros b c Ha Hb E; destruct b as [y|v' r' u']; try done; simpl in E.
    - injection E as <-. split; [done|]. split; [|done]. intros k. by destruct n.
    - destruct Ha as (Hu & Hv & Hr), Hb as (Hu' & Hv' & Hr'). destruct (rescale u' u) as [s|] eqn:Es; [|done]. cbn [mbind res_bind] in E.
      destruct (padd n v _) as [v2|] eqn:Ev; [|done]. cbn [mbind res_bind] in E. destruct (padd n r _) as [r2|] eqn:Er; [|done]. cbn [mbind res_bind] in E.
      injection E as <-. apply rescale_ok in Es as [Ed ->]; [|done..].
      apply IHv in Ev as (G1 & G2 & G3 & G4); [|done|by apply ok_mul]. apply IHr in Er as (F1 & F2 & F3 & F4); [|done|by apply ok_mul].
      split; [done|]. destruct Hu as [Hs Hd]. split; [|split].
      + intros k. simpl. destruct k; [rewrite F2|rewrite G2]; rewrite amount_mul; simpl; destruct n; field; done.
      + intros k s'. simpl. destruct k; [by rewrite F3|by rewrite G3].
      + intros k s'. simpl. rewrite Ed. destruct k; [rewrite <- F4|rewrite <- G4]; rewrite power_mul; simpl; lia.
  Qed.
End lem.
