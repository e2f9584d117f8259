(** Scalars.  The Python code runs on int/float/complex/NumPy values; every
    matrix algorithm in /repo/phasor/matrix uses only + - * / on them, so the
    model is written over an arbitrary field.  NumPy arrays are modelled one
    sample at a time (all those operations are elementwise); rounding is not
    modelled. *)
From Coq Require Export Field Ring Field_theory.
From Coq Require Import QArith Qcanon.
From stdpp Require Export base tactics list numbers gmap fin_sets.

Record fld := Fld {
  fcar :> Type;
  f0 : fcar; f1 : fcar;
  fadd : fcar -> fcar -> fcar;
  fmul : fcar -> fcar -> fcar;
  fsub : fcar -> fcar -> fcar;
  fopp : fcar -> fcar;
  fdiv : fcar -> fcar -> fcar;
  finv : fcar -> fcar;
  f_theory : field_theory f0 f1 fadd fmul fsub fopp fdiv finv (@eq fcar);
  f_dec : EqDecision fcar;
}.
#[global] Existing Instance f_dec.
Arguments f0 {_}. Arguments f1 {_}. Arguments fadd {_} _ _. Arguments fmul {_} _ _.
Arguments fsub {_} _ _. Arguments fopp {_} _. Arguments fdiv {_} _ _. Arguments finv {_} _.

Declare Scope fld_scope.
Delimit Scope fld_scope with F.
Notation "0" := f0 : fld_scope.
Notation "1" := f1 : fld_scope.
Infix "+" := fadd : fld_scope.
Infix "*" := fmul : fld_scope.
Infix "-" := fsub : fld_scope.
Infix "/" := fdiv : fld_scope.
Notation "- x" := (fopp x) : fld_scope.
Bind Scope fld_scope with fcar.

Ltac vm_decide := match goal with |- ?P => apply (proj1 (bool_decide_eq_true P)); vm_compute; reflexivity end.

(** The canonical rationals, a computable instance used by the examples. *)
Definition Qc_fld : fld :=
  Fld Qc (Q2Qc 0%Q) (Q2Qc 1%Q) Qcplus Qcmult Qcminus Qcopp Qcdiv Qcinv Qcft Qc_eq_dec.

Section sums.
  Context {K : fld}.
  Local Open Scope fld_scope.
  Add Field FF : (f_theory K).

  (** finite sums over a list *)
  Fixpoint fsum {A} (f : A -> K) (l : list A) : K :=
    match l with [] => 0 | a :: l => f a + fsum f l end.

  Lemma fsum_app {A} (f : A -> K) l1 l2 : fsum f (l1 ++ l2) = fsum f l1 + fsum f l2.
  Proof. induction l1 as [|a l1 IH]; simpl; [ring|]. rewrite IH. ring. Qed.
  Lemma fsum_perm {A} (f : A -> K) l1 l2 : l1 ≡ₚ l2 -> fsum f l1 = fsum f l2.
  Proof. induction 1; simpl; try congruence; ring. Qed.
  Lemma fsum_ext {A} (f g : A -> K) l : (forall a, a ∈ l -> f a = g a) -> fsum f l = fsum g l.
  Proof.
    induction l as [|a l IH]; simpl; intros H; [done|].
    rewrite (H a), IH; [done| |]; intros; [apply H|]; set_solver.
  Qed.
  Lemma fsum_0 {A} (f : A -> K) l : (forall a, a ∈ l -> f a = 0) -> fsum f l = 0.
  Proof.
    intros H. rewrite (fsum_ext f (fun _ => 0)) by done. clear H.
    induction l as [|a l IH]; simpl; [done|]. rewrite IH. ring.
  Qed.
  Lemma fsum_add {A} (f g : A -> K) l : fsum (fun a => f a + g a) l = fsum f l + fsum g l.
  Proof. induction l as [|a l IH]; simpl; [ring|]. rewrite IH. ring. Qed.
  Lemma fsum_sub {A} (f g : A -> K) l : fsum (fun a => f a - g a) l = fsum f l - fsum g l.
  Proof. induction l as [|a l IH]; simpl; [ring|]. rewrite IH. ring. Qed.
  Lemma fsum_opp {A} (f : A -> K) l : fsum (fun a => - f a) l = - fsum f l.
  Proof. induction l as [|a l IH]; simpl; [ring|]. rewrite IH. ring. Qed.
  Lemma fsum_mul_l {A} c (f : A -> K) l : fsum (fun a => c * f a) l = c * fsum f l.
  Proof. induction l as [|a l IH]; simpl; [ring|]. rewrite IH. ring. Qed.
  Lemma fsum_mul_r {A} c (f : A -> K) l : fsum (fun a => f a * c) l = fsum f l * c.
  Proof. induction l as [|a l IH]; simpl; [ring|]. rewrite IH. ring. Qed.
  Lemma fsum_swap {A B} (f : A -> B -> K) l1 l2 :
    fsum (fun a => fsum (fun b => f a b) l2) l1 = fsum (fun b => fsum (fun a => f a b) l1) l2.
  Proof.
    induction l1 as [|a l1 IH]; simpl.
    - symmetry. by apply fsum_0.
    - rewrite IH, <- fsum_add. done.
  Qed.
  Lemma fsum_map {A B} (h : B -> A) (f : A -> K) l : fsum f (h <$> l) = fsum (fun b => f (h b)) l.
  Proof. induction l as [|a l IH]; [done|]. rewrite fmap_cons. simpl. by rewrite IH. Qed.
  Lemma fsum_delta `{EqDecision A} (n : A) (f : A -> K) l :
    NoDup l -> fsum (fun a => if decide (a = n) then f a else 0) l
               = if decide (n ∈ l) then f n else 0.
  Proof.
    induction 1 as [|a l Hn Hl IH]; simpl; [done|]. rewrite IH.
    destruct (decide (a = n)) as [->|Hne].
    - rewrite (decide_False (P := n ∈ l)) by done.
      rewrite decide_True by set_solver. ring.
    - destruct (decide (n ∈ l)).
      + rewrite decide_True by set_solver. ring.
      + rewrite decide_False by set_solver. ring.
  Qed.
  Lemma fsum_split_elem `{EqDecision A} (n : A) (f : A -> K) l :
    NoDup l -> n ∈ l -> fsum f l = f n + fsum f (filter (.≠ n) l).
  Proof.
    induction 1 as [|a l Hn Hl IH]; intros Hin; [set_solver|].
    rewrite filter_cons. simpl.
    destruct (decide (a = n)) as [->|Hne].
    - rewrite decide_False by naive_solver. f_equal. f_equal.
      clear IH Hin Hl. induction l as [|b l IH]; [done|].
      rewrite filter_cons, decide_True by set_solver. f_equal. apply IH. set_solver.
    - rewrite decide_True by done. simpl. rewrite IH by set_solver. ring.
  Qed.
  Lemma fsum_sub_list {A} (f : A -> K) l1 l2 `{EqDecision A} :
    NoDup l1 -> NoDup l2 -> (forall a, a ∈ l1 -> a ∈ l2) ->
    (forall a, a ∈ l2 -> a ∉ l1 -> f a = 0) -> fsum f l1 = fsum f l2.
  Proof.
    intros H1 H2 Hs Hz. transitivity (fsum f (filter (.∈ l1) l2)).
    - apply fsum_perm. apply NoDup_Permutation; [done|by apply NoDup_filter|].
      intros a. rewrite elem_of_list_filter. naive_solver.
    - clear H1 H2 Hs. induction l2 as [|a l2 IH]; [done|].
      rewrite filter_cons. destruct (decide (a ∈ l1)); simpl; rewrite IH by set_solver; [done|].
      rewrite (Hz a) by set_solver. ring.
  Qed.
  Lemma f1_neq_0 : (1 : K) <> 0.
  Proof. apply (F_1_neq_0 (f_theory K)). Qed.
  Lemma fmul_integral (a b : K) : a * b = 0 -> a = 0 \/ b = 0.
  Proof.
    intros H. destruct (decide (a = 0)) as [|Ha]; [by left|right].
    assert (b = (a * b) / a) as -> by (field; done). rewrite H. field. done.
  Qed.
  Lemma fsub_0_eq (a b : K) : a - b = 0 -> a = b.
  Proof. intros H. assert (a = (a - b) + b) as -> by ring. rewrite H. ring. Qed.
  Lemma fmul_neq_0 (a b : K) : a <> 0 -> b <> 0 -> a * b <> 0.
  Proof. intros Ha Hb H. apply fmul_integral in H. tauto. Qed.
End sums.
