(** Model of /repo/phasor/optics/EZSqz.py: the parameters EZSqz derives from its arguments, the
    keys it requests, and the couplings it inserts.
    Numbers are real without rounding, and Python floats where the code divides arguments
    (division by zero raises); np.sqrt and np.log do not raise. The values assigned through
    PTREE_ASSIGN (153-160) are not used by the couplings and are not modelled. *)
From Coq Require Import Reals.
From stdpp Require Import base tactics list numbers.
From Verif Require Import Py Fld Herm ElecModel OptModel SigModel.

(** ** the constructor *)
Record ez_args := EzArgs {
  a_power : option R; a_field : option R; a_norm : option R;
  a_V1 : option R; a_V2 : option R; a_sqz : option R; a_anti : option R; a_loss : option R;
}.
(** equality of arguments in a set; None is equal to None *)
Definition arg_eqb (x y : option R) : bool :=
  match x, y with
  | Some a, Some b => if Req_EM_T a b then true else false
  | None, None => true
  | _, _ => false
  end.
(** 40-49 check_all *)
Definition check_all (a : ez_args) : list (option R) :=
  [a_power a; a_field a; a_norm a; a_V1 a; a_V2 a; a_sqz a; a_anti a; a_loss a].
(** 51, 54, 57, 60, 66: all(x is None for x in (check_all - set(allowed))) *)
Definition only_given (a : ez_args) (allowed : list (option R)) : bool :=
  forallb (fun x => existsb (arg_eqb x) allowed || match x with None => true | Some _ => false end) (check_all a).
(** 162-166: what the couplings use *)
Record ez_used := EzUsed { u_G1 : R; u_G2 : R; u_loss : R }.
Definition py_div (x y : R) : res R := if Req_EM_T y 0 then Err ZeroDivisionError else Ok (x / y)%R.
(** 104-116, 138-147: rel_variance_1 with rel_variance_2 or loss *)
Definition ez_variance (V1 : R) (oV2 oloss : option R) : res ez_used :=
  V2 ← match oV2, oloss with
       | Some V2, _ => _ ← py_div (1 - V1 * V2)%R (2 - V1 - V2)%R; Ok V2
       | None, None => py_div 1 V1
       | None, Some loss => py_div 1 (V1 - loss)%R
       end;
  Vd ← (if Req_EM_T V1 1 then Ok 0%R
        else a ← py_div (V1 - 1)%R (V2 - 1)%R; b ← py_div (V2 - 1)%R (V1 - 1)%R; Ok (a - b)%R);
  let G := ((2 + R_sqrt.sqrt (4 + Vd * Vd)) / 4)%R in
  L ← py_div (1 - V1 * V2)%R (2 - V1 - V2)%R;
  Ok (EzUsed (R_sqrt.sqrt G) (R_sqrt.sqrt (G - 1)) L).
(** 50-71; the branches 75-103 go on to 129, which reads attributes that are never set; 117-124
    goes on to 139, where rel_variance_1 is not set yet. 93 and 100 divide before that *)
Definition ez_init (a : ez_args) : res ez_used :=
  match a_power a, a_field a, a_norm a, a_V1 a, a_sqz a with
  | Some p, _, _, _, _ => if only_given a [Some p; a_loss a] then Err AttributeError else Err AssertionError
  | None, Some f, _, _, _ =>
      if only_given a [Some f; a_loss a] then _ ← py_div 1 f; Err AttributeError else Err AssertionError
  | None, None, Some n, _, _ =>
      if only_given a [Some n; a_loss a] then _ ← py_div 1 (1 - n)%R; Err AttributeError else Err AssertionError
  | None, None, None, Some V1, _ =>
      if only_given a [Some V1; a_loss a; a_V2 a] then ez_variance V1 (a_V2 a) (a_loss a) else Err AssertionError
  | None, None, None, None, Some s => if only_given a [Some s; a_anti a] then Err AttributeError else Err AssertionError
  | _, _, _, _, _ => Err RuntimeError
  end.

(** ** the couplings *)
Inductive sport := Fr | Bk | LFr | LBk.
#[global] Instance sport_eq_dec : EqDecision sport. Proof. solve_decision. Defined.
Definition is_loss (p : sport) : bool := match p with Fr | Bk => false | LFr | LBk => true end.
(** 200-210, 248-258; a loss port is not a key of tmap *)
Definition tmap (p : sport) : sport := match p with Fr => Bk | Bk => Fr | p => p end.
Definition lmap (p : sport) : sport := match p with Fr => LFr | Bk => LBk | LFr => Fr | LBk => Bk end.
Section sqz.
  (** a key: LOWER or RAISE; optical frequency; classical frequency; the rest *)
  Context {B Q C : Type} `{EqDecision B} `{EqDecision Q} `{EqDecision C}.
  Local Open Scope fld_scope.
  Context (csub : C -> C -> C).
  (** 212-213, 260-261: okey, and 2*ckey *)
  Context (okey : Q) (ckey2 : C).
  Notation key := (bool * (B * Q * C))%type.
  (** 222-227, 268-276 *)
  Definition sb_mirror (k : key) : key := (negb k.1, (k.2.1, csub ckey2 k.2.2)).
  Definition at_carrier (k : key) : bool := bool_decide (k.2.1.2 = okey).
  (** 199-243: what is requested for a key found at a node *)
  Definition ez_request (n : nd sport) (k : key) : list (nd sport * key) :=
    match n with
    | I p => if is_loss p then [] else
        [(O (tmap p), k); (O (lmap p), k)] ++ if at_carrier k then [(O (tmap p), sb_mirror k)] else []
    | O p => if is_loss p then [] else
        [(I (tmap p), k); (I (lmap p), k)] ++ if at_carrier k then [(I (tmap p), sb_mirror k)] else []
    | Sg _ => []
    end.
  Context (u : ez_used) (phi_deg : R).
  (** 246-247, 273-280 *)
  Definition ez_lR : C_fld := cre (R_sqrt.sqrt (u_loss u)).
  Definition ez_lT : C_fld := cre (R_sqrt.sqrt (1 - u_loss u)).
  Definition phi_cplC (lower : bool) : C_fld :=
    if lower then cis (- (2 * (2 * PI) * phi_deg / 360)) else cis (2 * (2 * PI) * phi_deg / 360).
  Definition ez_cplg1 : C_fld := cre (u_G1 u) * ez_lT.
  Definition ez_cplg2 (k : key) : C_fld := phi_cplC k.1 * cre (u_G2 u) * ez_lT.
  (** 263-323; [ks p]: port_set_get(p.i) *)
  Definition ez_edges (p : sport) (k : key) : list (edge (sport * key)) :=
    if at_carrier k then
      [(I (p, k), O (tmap p, k), ez_cplg1); (I (p, k), O (tmap p, sb_mirror k), ez_cplg2 k);
       (I (p, k), O (lmap p, k), ez_lR); (I (lmap p, k), O (p, k), ez_lR)]
    else [].
  Definition ez_coupling (ks : sport -> list key) : list (edge (sport * key)) :=
    (p ← [Fr; Bk]; k ← ks p; ez_edges p k) ++
    (p ← [LFr; LBk]; k ← ks p; [(I (p, k), O (p, k), ez_lT)]).
End sqz.
