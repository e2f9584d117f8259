(** What the key theorems talk about. *)
From Coq Require Import Reals.
From stdpp Require Import base tactics list numbers.
From Verif Require Import Py KeysModel.

(** strict total order on the entry names *)
Record strict_total {A} (lt : A -> A -> bool) : Prop := {
  st_irrefl x : lt x x = false;
  st_trans x y z : lt x y = true -> lt y z = true -> lt x z = true;
  st_total x y : x <> y -> lt x y = true \/ lt y x = true;
}.

(** the integer multiplicity of a base frequency in a frequency key *)
Definition mult {F} `{EqDecision F} (k : dict F Z) (f : F) : Z := default 0%Z (d_get k f).

(** no base frequency listed with multiplicity zero (and a real dict) *)
Definition canonical {F} `{EqDecision F} (k : dict F Z) : Prop :=
  d_wf k /\ forall f, d_get k f <> Some 0%Z.

(** frequencies in Hz: any carrier with addition and integer scaling *)
Record zmod := ZMod {
  zm_car :> Type;
  zm_zero : zm_car; zm_add : zm_car -> zm_car -> zm_car; zm_scale : zm_car -> Z -> zm_car;
  zm_comm x y : zm_add x y = zm_add y x;
  zm_assoc x y z : zm_add x (zm_add y z) = zm_add (zm_add x y) z;
  zm_add_0 x : zm_add zm_zero x = x;
  zm_scale_add x a b : zm_scale x (a + b)%Z = zm_add (zm_scale x a) (zm_scale x b);
  zm_scale_0 x : zm_scale x 0%Z = zm_zero;
}.
Definition R_zmod : zmod.
Proof.
  refine (ZMod R 0%R Rplus (fun x n => (x * IZR n)%R) _ _ _ _ _); intros; rewrite ?plus_IZR; ring.
Defined.
Definition Z_zmod : zmod.
Proof. refine (ZMod Z 0%Z Z.add Z.mul _ _ _ _ _); intros; ring. Defined.

Definition fk_freq {F} (M : zmod) (Hz : F -> M) (k : dict F Z) : M :=
  fk_frequency (zm_zero M) (zm_add M) (zm_scale M) Hz k.
Definition extract_freq {F} (M : zmod) (Hz : F -> M) (k : dict F Z) : M :=
  classical_frequency_extract (zm_zero M) (zm_add M) (zm_scale M) Hz k.

(** arithmetic expressions over given keys *)
Inductive fexpr {F} :=
| EKey (k : dict F Z) | EAdd (a b : fexpr) | ESub (a b : fexpr) | ENeg (a : fexpr)
| EScale (n : Z) (a : fexpr).
Arguments fexpr : clear implicits.
Section expr.
  Context {F : Type} `{EqDecision F}.
  Fixpoint eval (e : fexpr F) : dict F Z :=
    match e with
    | EKey k => k | EAdd a b => fk_add (eval a) (eval b) | ESub a b => fk_sub (eval a) (eval b)
    | ENeg a => fk_neg (eval a) | EScale n a => fk_rmul n (eval a)
    end.
  (** the leaves are canonical and no scaling is by zero *)
  Fixpoint proper (e : fexpr F) : Prop :=
    match e with
    | EKey k => canonical k | EAdd a b | ESub a b => proper a /\ proper b
    | ENeg a => proper a | EScale n a => n <> 0%Z /\ proper a
    end.
  Fixpoint meaning (e : fexpr F) (f : F) : Z :=
    match e with
    | EKey k => mult k f | EAdd a b => meaning a f + meaning b f
    | ESub a b => meaning a f - meaning b f | ENeg a => - meaning a f
    | EScale n a => n * meaning a f
    end%Z.
End expr.
