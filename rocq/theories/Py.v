(** Python runtime vocabulary shared by the models: exceptions as values,
    dict-of-set helpers, monadic loops. *)
From stdpp Require Import base tactics list numbers gmap fin_sets option.

Inductive exn :=
| KeyError | ZeroDivisionError | AssertionError | EmptyError | IndexError
| TypeError | AttributeError | RuntimeError | ValueError | NotImplemented
| UnboundLocalError
| OutOfFuel  (* never raised by Python: the model's loop bound was too small *).

#[global] Instance exn_eq_dec : EqDecision exn.
Proof. solve_decision. Defined.

Inductive res (A : Type) := Ok (a : A) | Err (e : exn).
Arguments Ok {A} _. Arguments Err {A} _.

#[global] Instance res_ret : MRet res := fun A a => Ok a.
#[global] Instance res_bind : MBind res := fun A B f m =>
  match m with Ok a => f a | Err e => Err e end.

(** [for x in l: body] where the body may raise *)
Fixpoint mfor {S A} (body : S -> A -> res S) (l : list A) (s : S) : res S :=
  match l with
  | [] => Ok s
  | a :: l => match body s a with Ok s => mfor body l s | Err e => Err e end
  end.

Lemma mfor_app {S A} (body : S -> A -> res S) l1 l2 s :
  mfor body (l1 ++ l2) s = match mfor body l1 s with Ok s => mfor body l2 s | Err e => Err e end.
Proof. revert s; induction l1 as [|a l1 IH]; intros s; simpl; [done|]. destruct (body s a); auto. Qed.

(** loop rule: an indexed invariant over the processed prefix *)
Lemma mfor_ind {S A} (body : S -> A -> res S) (I : list A -> S -> Prop) l s0 :
  I [] s0 ->
  (forall pre a post s, l = pre ++ a :: post -> I pre s ->
     exists s', body s a = Ok s' /\ I (pre ++ [a]) s') ->
  exists s', mfor body l s0 = Ok s' /\ I l s'.
Proof.
  intros H0 Hstep.
  assert (forall post pre s, l = pre ++ post -> I pre s ->
            exists s', mfor body post s = Ok s' /\ I l s') as G.
  { induction post as [|a post IH]; intros pre s Hl HI; simpl.
    - exists s. rewrite app_nil_r in Hl. by subst.
    - destruct (Hstep pre a post s Hl HI) as (s' & -> & HI').
      apply (IH (pre ++ [a])); [|done]. by rewrite <- app_assoc. }
  by apply (G l []).
Qed.

(** loop rule when the body may fail: only the success path is described *)
Lemma mfor_ind_ok {S A} (body : S -> A -> res S) (I : list A -> S -> Prop) l s0 s1 :
  mfor body l s0 = Ok s1 -> I [] s0 ->
  (forall pre a post s s', l = pre ++ a :: post -> I pre s ->
     body s a = Ok s' -> I (pre ++ [a]) s') ->
  I l s1.
Proof.
  intros Hok H0 Hstep.
  assert (forall post pre s, l = pre ++ post -> I pre s -> mfor body post s = Ok s1 -> I l s1) as G.
  { induction post as [|a post IH]; intros pre s Hl HI Hf; simpl in Hf.
    - rewrite app_nil_r in Hl. naive_solver.
    - destruct (body s a) as [s'|] eqn:Hb; [|done].
      apply (IH (pre ++ [a]) s'); [by rewrite <- app_assoc|by eapply Hstep|done]. }
  by apply (G l [] s0).
Qed.

Lemma mfor_const {S A} (body : S -> A -> res S) l s :
  (forall a, a ∈ l -> body s a = Ok s) -> mfor body l s = Ok s.
Proof.
  induction l as [|a l IH]; intros Hb; simpl; [done|].
  rewrite (Hb a) by set_solver. apply IH. intros. apply Hb. set_solver.
Qed.

Section dicts.
  Context {N : Type} `{Countable N}.

  (** [d[n]] on a [defaultdict(set)] *)
  Definition ds_get (m : gmap N (gset N)) (n : N) : gset N := default ∅ (m !! n).
  (** [d[n].add(v)] *)
  Definition ds_add (m : gmap N (gset N)) (n v : N) : gmap N (gset N) :=
    <[n := {[v]} ∪ ds_get m n]> m.
  (** [d[n].remove(v)] *)
  Definition ds_remove (m : gmap N (gset N)) (n v : N) : res (gmap N (gset N)) :=
    if decide (v ∈ ds_get m n) then Ok (<[n := ds_get m n ∖ {[v]}]> m) else Err KeyError.

  Context {V : Type}.
  (** [d[k]] on a plain dict *)
  Definition d_get (m : gmap (N * N) V) (k : N * N) : res V :=
    match m !! k with Some v => Ok v | None => Err KeyError end.
  (** [del d[k]] *)
  Definition d_del (m : gmap (N * N) V) (k : N * N) : res (gmap (N * N) V) :=
    match m !! k with Some _ => Ok (delete k m) | None => Err KeyError end.

  Lemma ds_get_add m n v k :
    ds_get (ds_add m n v) k = if decide (k = n) then {[v]} ∪ ds_get m n else ds_get m k.
  Proof.
    unfold ds_add, ds_get. destruct (decide (k = n)) as [->|].
    - by rewrite lookup_insert.
    - by rewrite lookup_insert_ne.
  Qed.
  Lemma ds_remove_ok m n v : v ∈ ds_get m n ->
    ds_remove m n v = Ok (<[n := ds_get m n ∖ {[v]}]> m).
  Proof. intros. unfold ds_remove. by rewrite decide_True. Qed.
  Lemma ds_get_insert m n X k :
    ds_get (<[n := X]> m) k = if decide (k = n) then X else ds_get m k.
  Proof.
    unfold ds_get. destruct (decide (k = n)) as [->|].
    - by rewrite lookup_insert.
    - by rewrite lookup_insert_ne.
  Qed.
  Lemma ds_get_delete m n k :
    ds_get (delete n m) k = if decide (k = n) then ∅ else ds_get m k.
  Proof.
    unfold ds_get. destruct (decide (k = n)) as [->|].
    - by rewrite lookup_delete.
    - by rewrite lookup_delete_ne.
  Qed.
End dicts.
