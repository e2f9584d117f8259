(** Scalars for the numeric parts of the code: a field with conjugation,
    magnitude and square root (what numpy's [.conjugate()], [abs] and [**.5]
    compute on complex numbers, without rounding), and the instance of complex
    numbers over Coq's real numbers. *)
From Coq Require Import Reals Lra Lia.
From Verif Require Import Fld.
Local Open Scope fld_scope.

Record herm (K : fld) := Herm {
  h_conj : K -> K;
  h_sqrt : K -> K;
  h_abs : K -> K;
  (** real and not negative *)
  h_nn : K -> Prop;
  h_conj_add : forall x y, h_conj (x + y) = h_conj x + h_conj y;
  h_conj_mul : forall x y, h_conj (x * y) = h_conj x * h_conj y;
  h_conj_conj : forall x, h_conj (h_conj x) = x;
  h_nn_sq : forall x, h_nn (x * h_conj x);
  h_nn_add : forall x y, h_nn x -> h_nn y -> h_nn (x + y);
  h_nn_mul : forall x y, h_nn x -> h_nn y -> h_nn (x * y);
  h_nn_sum0 : forall x y, h_nn x -> h_nn y -> x + y = 0 -> x = 0;
  h_nn_conj : forall x, h_nn x -> h_conj x = x;
  h_sq0 : forall x, x * h_conj x = 0 -> x = 0;
  h_sqrt_nn : forall x, h_nn x -> h_nn (h_sqrt x);
  h_sqrt_sq : forall x, h_nn x -> h_sqrt x * h_sqrt x = x;
  h_abs_nn : forall x, h_nn (h_abs x);
  h_abs_sq : forall x, h_abs x * h_abs x = x * h_conj x;
}.
Arguments h_conj {K} _ _. Arguments h_sqrt {K} _ _. Arguments h_abs {K} _ _. Arguments h_nn {K} _ _.

(** ** real numbers *)
Definition R_fld : fld.
Proof.
  refine (Fld R 0%R 1%R Rplus Rmult Rminus Ropp Rdiv Rinv _ Req_EM_T).
  exact Rfield.
Defined.

(** ** complex numbers *)
Definition C_car : Type := (R * R)%type.
Definition C_add (x y : C_car) : C_car := (x.1 + y.1, x.2 + y.2)%R.
Definition C_mul (x y : C_car) : C_car := (x.1 * y.1 - x.2 * y.2, x.1 * y.2 + x.2 * y.1)%R.
Definition C_opp (x : C_car) : C_car := (- x.1, - x.2)%R.
Definition C_sub (x y : C_car) : C_car := (x.1 - y.1, x.2 - y.2)%R.
Definition C_sq (x : C_car) : R := (x.1 * x.1 + x.2 * x.2)%R.
Definition C_inv (x : C_car) : C_car := (x.1 / C_sq x, - x.2 / C_sq x)%R.
Definition C_div (x y : C_car) : C_car := C_mul x (C_inv y).
Definition C_of (r : R) : C_car := (r, 0%R).
Definition C_i : C_car := (0%R, 1%R).
Lemma C_sq_pos x : x <> (0, 0)%R -> (C_sq x > 0)%R.
Proof.
  destruct x as [a b]. unfold C_sq. simpl. intros Hx.
  pose proof (Rle_0_sqr a) as Ha. pose proof (Rle_0_sqr b) as Hb. unfold Rsqr in *.
  destruct (Req_dec a 0) as [->|Hna].
  - destruct (Req_dec b 0) as [->|Hnb]; [done|]. pose proof (Rsqr_pos_lt _ Hnb). unfold Rsqr in *. lra.
  - pose proof (Rsqr_pos_lt _ Hna). unfold Rsqr in *. lra.
Qed.
#[global] Instance C_eq_dec : EqDecision C_car.
Proof.
  intros [a b] [c d]. destruct (Req_EM_T a c) as [->|Hn]; [|right; by intros [= ? _]].
  destruct (Req_EM_T b d) as [->|Hn]; [by left|right; by intros [= ?]].
Defined.
Lemma C_field_theory :
  field_theory (0, 0)%R (1, 0)%R C_add C_mul C_sub C_opp C_div C_inv (@eq C_car).
Proof.
  split.
  - split; intros; unfold C_add, C_mul, C_sub, C_opp; apply injective_projections; simpl; ring.
  - intros [= ?]. lra.
  - done.
  - intros x Hx. pose proof (C_sq_pos x Hx) as Hp. destruct x as [a b].
    unfold C_mul, C_inv. simpl. unfold C_sq in *. simpl in *. f_equal; field; lra.
Qed.
Definition C_fld : fld :=
  Fld C_car (0, 0)%R (1, 0)%R C_add C_mul C_sub C_opp C_div C_inv C_field_theory C_eq_dec.

Definition C_conj (x : C_car) : C_car := (x.1, - x.2)%R.
Definition C_abs (x : C_car) : C_car := (R_sqrt.sqrt (C_sq x), 0%R).
(** only used on real, not negative arguments *)
Definition C_sqrt (x : C_car) : C_car := (R_sqrt.sqrt x.1, 0%R).
Definition C_nn (x : C_car) : Prop := (0 <= x.1)%R /\ x.2 = 0%R.
Lemma C_sq_nn x : (0 <= C_sq x)%R.
Proof. unfold C_sq. pose proof (Rle_0_sqr x.1). pose proof (Rle_0_sqr x.2). unfold Rsqr in *. lra. Qed.
Definition C_herm : herm C_fld.
Proof.
  refine (Herm C_fld C_conj C_sqrt C_abs C_nn _ _ _ _ _ _ _ _ _ _ _ _ _); simpl.
  - intros [a b] [c d]. unfold C_conj, C_add. simpl. f_equal. ring.
  - intros [a b] [c d]. unfold C_conj, C_mul. simpl. f_equal; ring.
  - intros [a b]. unfold C_conj. simpl. f_equal. ring.
  - intros [a b]. unfold C_nn, C_conj, C_mul. simpl. pose proof (C_sq_nn (a, b)) as Hs. unfold C_sq in Hs. simpl in Hs.
    split; [|ring]. lra.
  - intros [a b] [c d] [H1 H2] [H3 H4]. unfold C_nn, C_add. simpl in *. lra.
  - intros [a b] [c d] [H1 H2] [H3 H4]. unfold C_nn, C_mul. simpl in *. subst. split; [|ring].
    pose proof (Rmult_le_pos a c H1 H3). lra.
  - intros [a b] [c d] [H1 H2] [H3 H4]. unfold C_add. simpl in *. intros [= He _]. f_equal; lra.
  - intros [a b] [H1 H2]. unfold C_conj. simpl in *. subst. f_equal. ring.
  - intros x Hx. destruct (decide (x = (0, 0)%R)) as [|Hn]; [done|]. apply C_sq_pos in Hn.
    unfold C_mul, C_conj in Hx. simpl in Hx. injection Hx as H1 _. unfold C_sq in Hn. lra.
  - intros [a b] _. unfold C_nn, C_sqrt. simpl. split; [apply sqrt_pos|done].
  - intros [a b] [H1 H2]. unfold C_sqrt, C_mul. simpl in *. subst. f_equal; [|ring].
    rewrite Rmult_0_r, Rminus_0_r. by apply sqrt_sqrt.
  - intros x. unfold C_nn, C_abs. simpl. split; [apply sqrt_pos|done].
  - intros x. unfold C_abs, C_mul, C_conj. simpl. f_equal; [|ring].
    rewrite Rmult_0_r, Rminus_0_r, sqrt_sqrt by apply C_sq_nn. unfold C_sq. ring.
Defined.

(** ** consequences of the laws *)
Section herm.
  Context {K : fld} (h : herm K).
  Add Field FH : (f_theory K).
  Notation conj := (h_conj h).
  Lemma conj_0 : conj 0 = 0.
  Proof.
    assert (conj 0 = conj 0 + conj 0) as He.
    { rewrite <- (h_conj_add K h). f_equal. ring. }
    assert (conj 0 + - conj 0 = conj 0 + conj 0 + - conj 0) as He' by (by rewrite <- He).
    transitivity (conj 0 + conj 0 + - conj 0); [ring|]. rewrite <- He'. ring.
  Qed.
  Lemma conj_1 : conj 1 = 1.
  Proof.
    assert (conj (1 * conj 1) = conj 1 * 1) as He.
    { rewrite (h_conj_mul K h), (h_conj_conj K h). done. }
    assert (1 * conj 1 = conj 1) as H1 by ring. rewrite H1, (h_conj_conj K h) in He. rewrite He at 2. ring.
  Qed.
  Lemma conj_neq_0 x : x <> 0 -> conj x <> 0.
  Proof. intros Hx Hc. apply Hx. rewrite <- (h_conj_conj K h x), Hc. apply conj_0. Qed.
  Lemma conj_div x y : y <> 0 -> conj (x / y) = conj x / conj y.
  Proof.
    intros Hy. pose proof (conj_neq_0 y Hy) as Hc.
    assert (conj (x / y) * conj y = conj x) as He.
    { rewrite <- (h_conj_mul K h). f_equal. field. done. }
    rewrite <- He. field. done.
  Qed.
  Lemma nn_0 : h_nn h 0.
  Proof. pose proof (h_nn_sq K h 0) as Hn. assert (0 * conj 0 = 0) as He by ring. by rewrite He in Hn. Qed.
  Lemma nn_1 : h_nn h 1.
  Proof. pose proof (h_nn_sq K h 1) as Hn. rewrite conj_1 in Hn. assert (1 * 1 = (1 : K)) as He by ring. by rewrite He in Hn. Qed.
  Lemma two_neq_0 : (1 + 1 : K) <> 0.
  Proof. intros He. apply (@f1_neq_0 K). eapply (h_nn_sum0 K h); [apply nn_1..|done]. Qed.
  Lemma nn_fsum {A} (f : A -> K) l : (forall a, a ∈ l -> h_nn h (f a)) -> h_nn h (fsum f l).
  Proof.
    induction l as [|a l IH]; intros Hf; cbn [fsum]; [apply nn_0|].
    apply (h_nn_add K h); [apply Hf; set_solver|]. apply IH. intros. apply Hf. set_solver.
  Qed.
  Lemma nn_sum0_r x y : h_nn h x -> h_nn h y -> x + y = 0 -> y = 0.
  Proof. intros Hx Hy He. eapply (h_nn_sum0 K h); [exact Hy|exact Hx|]. rewrite <- He. ring. Qed.
  Lemma abs_0 x : h_abs h x = 0 -> x = 0.
  Proof. intros He. apply (h_sq0 K h). rewrite <- (h_abs_sq K h), He. ring. Qed.
  Lemma abs_of_0 : h_abs h 0 = 0.
  Proof.
    assert (h_abs h 0 * h_abs h 0 = 0) as He by (rewrite (h_abs_sq K h); ring).
    apply fmul_integral in He as [|]; done.
  Qed.
End herm.
