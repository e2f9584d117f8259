(** Proofs about the energy in the nonlinear crystal. *)
From Coq Require Import Reals Lra.
From stdpp Require Import base tactics list numbers gmap.
From stdpp Require Import list.
From Verif Require Import Py Fld Herm SigModel SigProofs OdeModel OdeSpec OdeProofs OdeProofs2 NoiProofs3 NlcModel NlcSpec NlcProofs.

Section sums.
  Local Open Scope fld_scope.
  Lemma fsum3_ext {A} (f h : A -> A -> A -> C_fld) l : (forall a b c, a ∈ l -> b ∈ l -> c ∈ l -> f a b c = h a b c) ->
    fsum (fun a => fsum (fun b => fsum (fun c => f a b c) l) l) l = fsum (fun a => fsum (fun b => fsum (fun c => h a b c) l) l) l.
  Proof. intros E. apply fsum_ext. intros a Ha. apply fsum_ext. intros b Hb. apply fsum_ext. intros c Hc. by apply E. Qed.
  Lemma fsum3_add {A} (f h : A -> A -> A -> C_fld) l :
    fsum (fun a => fsum (fun b => fsum (fun c => f a b c + h a b c) l) l) l =
    fsum (fun a => fsum (fun b => fsum (fun c => f a b c) l) l) l + fsum (fun a => fsum (fun b => fsum (fun c => h a b c) l) l) l.
  Proof.
    rewrite <- fsum_add. apply fsum_ext. intros a _. rewrite <- fsum_add. apply fsum_ext. intros b _. by rewrite <- fsum_add.
  Qed.
  Lemma fsum3_mul {A} k (f : A -> A -> A -> C_fld) l :
    fsum (fun a => fsum (fun b => fsum (fun c => k * f a b c) l) l) l = k * fsum (fun a => fsum (fun b => fsum (fun c => f a b c) l) l) l.
  Proof.
    rewrite <- fsum_mul_l. apply fsum_ext. intros a _. rewrite <- fsum_mul_l. apply fsum_ext. intros b _. by rewrite <- fsum_mul_l.
  Qed.
  Lemma fsum3_conj {A} (f : A -> A -> A -> C_fld) l :
    cconj (fsum (fun a => fsum (fun b => fsum (fun c => f a b c) l) l) l) = fsum (fun a => fsum (fun b => fsum (fun c => cconj (f a b c)) l) l) l.
  Proof.
    rewrite cconj_fsum. apply fsum_ext. intros a _. rewrite cconj_fsum. apply fsum_ext. intros b _. by rewrite cconj_fsum.
  Qed.
  (** the first argument last *)
  Lemma fsum3_rot {A} (f : A -> A -> A -> C_fld) l :
    fsum (fun a => fsum (fun b => fsum (fun c => f a b c) l) l) l = fsum (fun b => fsum (fun c => fsum (fun a => f a b c) l) l) l.
  Proof. rewrite fsum_swap. apply fsum_ext. intros b _. by rewrite fsum_swap. Qed.
  Lemma fsum3_sw {A} (f : A -> A -> A -> C_fld) l :
    fsum (fun a => fsum (fun b => fsum (fun c => f a b c) l) l) l = fsum (fun a => fsum (fun b => fsum (fun c => f b a c) l) l) l.
  Proof. rewrite fsum_swap. done. Qed.
  Lemma NoDup_both {A} (l : bool) (L : list A) : NoDup L -> NoDup (s ← L; [(l, s); (negb l, s)]).
  Proof.
    induction 1 as [|s L Hs HL IH]; [constructor|]. rewrite bind_cons. apply NoDup_app. split_and!.
    - constructor; [|constructor; [set_solver|constructor]]. intros Hx. apply elem_of_list_singleton in Hx. injection Hx. by destruct l.
    - intros y Hy Hz. apply elem_of_list_bind in Hz as (s' & Hz & Hs'). set_solver.
    - done.
  Qed.
End sums.

Section energy.
  Context {B Q F : Type} `{Countable B} `{Countable Q}.
  Local Open Scope fld_scope.
  Add Field FN : (f_theory C_fld).
  Context (qadd qsub : Q -> Q -> Q) (F_items : Q -> list (F * Z)) (n : Q -> Z).
  Notation nk := (@nkey B Q).
  Notation two := (1 + 1 : C_fld).
  Context (g : R) (S : list (B * Q)) (ks outs : list nk).
  Context (Hks : both S ks) (Houts : both S outs) (HS : NoDup S).
  Context (Hcomm : forall a b, qadd a b = qadd b a).
  Context (Hsub : forall a b c, qsub a b = c <-> a = qadd c b).
  Notation all := (all_terms qadd qsub n g S ks).
  Definition rhs (ts : list (nk * mono C_fld nk)) (k : nk) := default [] (terms_dict ts !! k).

  Lemma fsum_ks (h : nk -> C_fld) l : fsum h ks = fsum (fun s => h (l, s) + h (negb l, s)) S.
  Proof using Hks HS EqDecision0 EqDecision1.
    clear Hsub Hcomm Houts qadd qsub outs. destruct Hks as [Hnd Hk]. transitivity (fsum h (s ← S; [(l, s); (negb l, s)])).
    - apply fsum_perm, NoDup_Permutation; [done| |].
      + by apply NoDup_both.
      + intros [l' s]. rewrite Hk, elem_of_list_bind. split.
        * intros Hs. exists s. split; [|done]. destruct l, l'; set_solver.
        * intros (s' & Hs & Hs'). set_solver.
    - rewrite fsum_bind. apply fsum_ext. intros s _. cbn [fsum]. ring.
  Qed.
  Notation term k1 k2 := (term_of qadd qsub n g S (k1, k2)).
  Definition at_key (x : nk -> C_fld) (k : nk) (e : nk * mono C_fld nk) : C_fld := if decide (e.1 = k) then prod_at x e.2 else 0.
  Lemma other_part x l s (s1 : B * Q) k2 : fsum (at_key x (l, s)) (term (negb l, s1) k2) = 0.
  Proof using.
    unfold term_of. cbn [fst snd]. destruct (decide _); cbn [fsum]; [|done]. unfold at_key. cbn [fst]. rewrite decide_False; [ring|].
    unfold key_to. destruct l; cbn; congruence.
  Qed.
  Lemma sum_part x l s (s1 s2 : B * Q) : s ∈ S -> fsum (at_key x (l, s)) (term (l, s1) (l, s2)) =
    (if l then ci else - ci) * cre g * cZ (n s.2) * (if decide (sums_to qadd s1 s2 s) then (if decide (s1 = s2) then 1 / two else 1) * (x (l, s1) * x (l, s2)) else 0).
  Proof using.
    intros Hs. unfold term_of. cbn [fst snd]. rewrite key_to_same. cbn [snd]. destruct (decide (sums_to qadd s1 s2 s)) as [[Hb ->]|Hns].
    - rewrite (decide_True (P := _ /\ _)) by done. cbn [fsum]. unfold at_key. cbn [fst snd]. rewrite decide_True by done. unfold prod_at, gain_of. cbn [fst snd map fprod].
      rewrite key_to_same. cbn [fst snd]. unfold Ggain. destruct (decide (s1 = s2)) as [->|Hne].
      + rewrite decide_True by done. destruct l; field; apply two_neq.
      + rewrite decide_False by congruence. destruct l; ring.
    - destruct (decide (_ /\ _)) as [[Hb _]|]; cbn [fsum]; [|ring]. unfold at_key. cbn [fst]. rewrite decide_False; [ring|]. intros [= E]. apply Hns. done.
  Qed.
  Lemma diff_part x l s (s1 s2 : B * Q) : s ∈ S -> fsum (at_key x (l, s)) (term (l, s1) (negb l, s2)) =
    (if l then ci else - ci) * cre g * cZ (n s.2) * (if decide (sums_to qadd s s2 s1) then x (l, s1) * x (negb l, s2) else 0).
  Proof using Hsub.
    intros Hs. unfold term_of. cbn [fst snd]. rewrite key_to_diff. cbn [snd].
    assert (s1.1 = s2.1 /\ s = (s1.1, qsub s1.2 s2.2) <-> sums_to qadd s s2 s1) as Hiff.
    { unfold sums_to. destruct s as [b q], s1 as [b1 q1], s2 as [b2 q2]. cbn [fst snd]. split.
      - intros [-> [= -> E]]. split; [done|]. f_equal. by apply Hsub.
      - intros [-> [= -> E]]. split; [done|]. f_equal. symmetry. by apply Hsub. }
    destruct (decide (sums_to qadd s s2 s1)) as [Hs1|Hns].
    - apply Hiff in Hs1 as [Hb E]. rewrite <- E. rewrite (decide_True (P := _ /\ _)) by done. cbn [fsum]. unfold at_key. cbn [fst snd]. rewrite decide_True by done.
      unfold prod_at, gain_of. cbn [fst snd map fprod]. rewrite key_to_diff, <- E. cbn [fst snd]. unfold Ggain. rewrite decide_False by (destruct l; cbn; congruence).
      destruct l; ring.
    - destruct (decide (_ /\ _)) as [[Hb _]|]; cbn [fsum]; [|ring]. unfold at_key. cbn [fst]. rewrite decide_False; [ring|]. intros [= E]. apply Hns, Hiff. by rewrite E.
  Qed.
  Lemma rate_lem x l s : s ∈ S -> poly_at x (rhs all (l, s)) = field_rate qadd n g S l s x.
  Proof using Hks HS Hsub EqDecision0 EqDecision1.
    intros Hs. unfold rhs. rewrite dict_poly. transitivity (fsum (at_key x (l, s)) all); [done|]. unfold all_terms, pairs. rewrite !fsum_bind. unfold field_rate.
    rewrite (fsum_ks _ l), <- fsum_mul_l. apply fsum_ext. intros s1 H1. rewrite !fsum_bind, !(fsum_ks _ l), <- fsum_add, <- fsum_mul_l.
    apply fsum_ext. intros s2 H2. cbn [fsum]. rewrite !other_part, sum_part, diff_part by done. ring.
  Qed.

  Context (x : nk -> C_fld) (Hx : conj_fields S x).
  Context (Hadd : forall s1 s2 s3, s1 ∈ S -> s2 ∈ S -> s3 ∈ S -> sums_to qadd s1 s2 s3 -> n s3.2 = (n s1.2 + n s2.2)%Z).
  Notation X := (fun s => x (true, s)).
  Lemma cZ_add a b : cZ (a + b) = cZ a + cZ b.
  Proof. unfold cZ. by rewrite plus_IZR, cre_add. Qed.
  Lemma cZ_conj a : cconj (cZ a) = cZ a.
  Proof. apply cconj_cre. Qed.
  Notation chi s1 s2 s3 := (if decide (sums_to qadd s1 s2 s3) then 1 else 0 : C_fld).
  Definition U : C_fld := fsum (fun a => fsum (fun b => fsum (fun c => chi a b c * (cZ (n c.2) * (X a * X b * cconj (X c)))) S) S) S.
  Lemma chi_sw (a b c : B * Q) : chi a b c = chi b a c.
  Proof using Hcomm.
    destruct (decide (sums_to qadd a b c)) as [Hs|Hs].
    - rewrite decide_True; [done|]. by apply sums_comm.
    - rewrite decide_False; [done|]. intros Hs'. apply Hs. by apply sums_comm.
  Qed.
  Lemma chi_conj (a b c : B * Q) : cconj (chi a b c) = chi a b c.
  Proof. destruct (decide _); [apply cconj_1|exact (conj_0 C_herm)]. Qed.
  Lemma D_half : fsum (fun a => fsum (fun b => fsum (fun c => chi a b c * (cZ (n a.2) * cconj (X a * X b * cconj (X c)))) S) S) S = cconj U / two.
  Proof using Hcomm Hadd.
    set (D := fsum _ S). assert (D + D = cconj U) as E; [|rewrite <- E; field; apply two_neq].
    unfold D at 2. rewrite fsum3_sw. unfold D. rewrite <- fsum3_add. unfold U. rewrite fsum3_conj. apply fsum3_ext. intros a b c Ha Hb Hc.
    rewrite (chi_sw b a c), !cconj_mul, chi_conj, cZ_conj. destruct (decide (sums_to qadd a b c)) as [Hs|]; [|ring].
    rewrite (Hadd a b c Ha Hb Hc Hs), cZ_add. ring.
  Qed.
  Lemma power_lem : power_rate S (rhs all) x =
    (ci * cre g * mixing qadd n different S x + cconj (ci * cre g * mixing qadd n different S x)) / two.
  Proof using All.
    set (W := mixing qadd n different S x).
    assert (fsum (fun s => cconj (X s) * field_rate qadd n g S true s x) S = ci * cre g * ((U + W + cconj U) / two)) as E.
    { transitivity (ci * cre g * (fsum (fun a => fsum (fun b => fsum (fun c => chi a b c * (cZ (n c.2) * ((if decide (a = b) then 1 / two else 1) * (X a * X b * cconj (X c))))) S) S) S +
        fsum (fun a => fsum (fun b => fsum (fun c => chi a b c * (cZ (n a.2) * cconj (X a * X b * cconj (X c)))) S) S) S)).
      - rewrite (fsum3_rot (fun a b c => chi a b c * (cZ (n a.2) * cconj (X a * X b * cconj (X c))))).
        rewrite (fsum3_sw (fun b c a => chi a b c * (cZ (n a.2) * cconj (X a * X b * cconj (X c))))).
        rewrite <- fsum3_add, <- fsum3_mul, <- fsum3_rot. apply fsum_ext. intros s Hs. unfold field_rate.
        rewrite <- !fsum_mul_l. apply fsum_ext. intros s1 H1. rewrite <- !fsum_mul_l. apply fsum_ext. intros s2 H2.
        cbn [negb]. rewrite (Hx s2 H2), !cconj_mul, cconj_conj.
        destruct (decide (sums_to qadd s1 s2 s)), (decide (sums_to qadd s s2 s1)); ring.
      - rewrite D_half. assert (fsum (fun a => fsum (fun b => fsum (fun c => chi a b c * (cZ (n c.2) * ((if decide (a = b) then 1 / two else 1) * (X a * X b * cconj (X c))))) S) S) S = (U + W) / two) as ->.
        2: { field. apply two_neq. }
        replace ((U + W) / two) with (1 / two * (U + W)) by (field; apply two_neq). unfold U, W, mixing. rewrite <- fsum3_add, <- fsum3_mul.
        apply fsum3_ext. intros a b c _ _ _. unfold different. destruct (decide (sums_to qadd a b c)).
        + destruct (decide (a = b)) as [->|Hab]; [rewrite (bool_decide_eq_false_2 (b <> b)) by tauto; ring|rewrite bool_decide_eq_true_2 by done; field; apply two_neq].
        + ring. }
    unfold power_rate. rewrite fsum_add, <- cconj_fsum.
    rewrite (fsum_ext _ (fun s => cconj (X s) * field_rate qadd n g S true s x)) by (intros s Hs; by rewrite rate_lem).
    rewrite E, !cconj_mul, cconj_div by apply two_neq. rewrite !cconj_add, cconj_conj, cconj_1, cconj_ci, cconj_cre. field. apply two_neq.
  Qed.
End energy.
