(** Model of /repo/phasor/math/complex.py (class Complex 28-300, exp 305-308,
    angle 310-326) with real numbers for the component type.  Rounding and the
    NumPy-array components are not modelled (each sample behaves as here);
    float division by zero raises ZeroDivisionError. *)
From Coq Require Import Reals.
From stdpp Require Import base tactics list numbers.
From Verif Require Import Py.
Local Open Scope R_scope.

Record pc := PC { re : R; im : R }.

(** an operand: another Complex (or any object with real and imag), or a bare
    symbolic real without these attributes *)
Inductive operand := OCplx (z : pc) | OBare (x : R).

(** the try/except AttributeError prologue, 58-63 and in every operator *)
Definition o_real (o : operand) : R := match o with OCplx z => re z | OBare x => x end.
Definition o_imag (o : operand) : R := match o with OCplx z => im z | OBare _ => 0 end.

(** __add__ 57-68, __radd__ 70-79, __sub__ 81-90, __rsub__ 92-101 *)
Definition pc_add (s : pc) (o : operand) : pc := PC (re s + o_real o) (im s + o_imag o).
Definition pc_radd (s : pc) (o : operand) : pc := PC (o_real o + re s) (o_imag o + im s).
Definition pc_sub (s : pc) (o : operand) : pc := PC (re s - o_real o) (im s - o_imag o).
Definition pc_rsub (s : pc) (o : operand) : pc := PC (o_real o - re s) (o_imag o - im s).
(** __mul__ 103-112, __rmul__ 114-123 *)
Definition pc_mul (s : pc) (o : operand) : pc :=
  PC (re s * o_real o - im s * o_imag o) (re s * o_imag o + im s * o_real o).
Definition pc_rmul (s : pc) (o : operand) : pc :=
  PC (o_real o * re s - o_imag o * im s) (o_real o * im s + o_imag o * re s).
(** __div__ 125-136 = __truediv__ 151-162 *)
Definition pc_div (s : pc) (o : operand) : res pc :=
  let den := o_real o * o_real o + o_imag o * o_imag o in
  if Req_EM_T den 0 then Err ZeroDivisionError else
  Ok (PC ((re s * o_real o + im s * o_imag o) / den) ((im s * o_real o - re s * o_imag o) / den)).
(** __rdiv__ 138-149 = __rtruediv__ 164-175 *)
Definition pc_rdiv (s : pc) (o : operand) : res pc :=
  let den := re s * re s + im s * im s in
  if Req_EM_T den 0 then Err ZeroDivisionError else
  Ok (PC ((o_real o * re s + o_imag o * im s) / den) ((o_imag o * re s - o_real o * im s) / den)).
(** __eq__ 183-193: [other.real] on a bare operand raises *)
Definition pc_eq (s : pc) (o : operand) : res bool :=
  match o with
  | OCplx z => Ok (if Req_EM_T (re s) (re z) then (if Req_EM_T (im s) (im z) then true else false) else false)
  | OBare _ => Err AttributeError
  end.
(** __neg__ 269-270, __abs__ 275-276, abs_sq 278-279, conjugate 288-292 *)
Definition pc_neg (s : pc) : pc := PC (- re s) (- im s).
Definition pc_abs (s : pc) : R := R_sqrt.sqrt (re s * re s + im s * im s).
Definition pc_abs_sq (s : pc) : R := re s * re s + im s * im s.
Definition pc_conj (s : pc) : pc := PC (re s) (- im s).

(** __pow__ 216-224, integer exponent: [o / 2] is a float, so [isf] records whether
    o_real has become one; [range] of a float raises TypeError *)
Fixpoint pow_halve (fuel : nat) (o : Z) (isf : bool) (val : pc) : res (Z * bool * pc) :=
  match fuel with
  | O => Err OutOfFuel
  | S fuel => if decide (o mod 2 = 0)%Z then pow_halve fuel (o / 2)%Z true (pc_mul val (OCplx val)) else Ok (o, isf, val)
  end.
Definition pc_pow_int (fuel : nat) (s : pc) (n : Z) : res pc :=
  '(o, isf, val) ← pow_halve fuel n false s;
  if (isf : bool) then Err TypeError else
  Ok (Nat.iter (Z.to_nat (o - 1)) (fun v => pc_mul v (OCplx s)) val).

(** __pow__ 225-237, exponent 0.5 *)
Definition pc_sqrt (s : pc) : pc :=
  let aval := pc_abs s in
  let rval_sq := (aval + re s) / 2 in
  let ival_sq := (aval - re s) / 2 in
  if Rle_dec 0 (im s) then PC (R_sqrt.sqrt rval_sq) (R_sqrt.sqrt ival_sq)
  else PC (R_sqrt.sqrt rval_sq) (- R_sqrt.sqrt ival_sq).

(** the phase computed at 240-251 and by angle 310-322 *)
Definition pc_phase (s : pc) : R :=
  let phase := if Req_EM_T (re s) 0 then (if Rle_dec 0 (im s) then PI / 2 else - PI / 2)
               else atan (im s / re s) in
  if Rlt_dec (re s) 0 then (if Rle_dec 0 (im s) then phase + PI else phase - PI) else phase.

(** __pow__ 239-257, any other exponent; [None] for the returned NotImplemented,
    which Python turns into a TypeError *)
Definition pc_pow_gen (s : pc) (o : operand) : res pc :=
  let aval := Rpower (pc_abs s) (o_real o) in
  let phase := pc_phase s * o_real o in
  match o with
  | OBare _ => Ok (PC (aval * cos phase) (- aval * sin phase))
  | OCplx _ => Err TypeError
  end.

(** exp 305-308, angle 310-326 *)
Definition pc_exp (z : pc) : pc :=
  let mag := exp (re z) in PC (mag * cos (im z)) (mag * sin (im z)).
Definition pc_angle (z : pc) (deg : bool) : R :=
  if deg then pc_phase z * 180 / PI else pc_phase z.
