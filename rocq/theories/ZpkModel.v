(** Model of phasor/signals/power_loops.py.  A filter is a triple of zeros, poles and gain.  Numbers
    are exact.  scipy.signal.cheby1 and butter are not modelled: their results are arguments;
    scipy.signal.freqresp of a triple is its value at 1j times the frequency.  Not modelled: cheby_plateau and cheby_plateau_inner (zpk_div of two of scipy's
    results), the first of the two functions controller_10x1e3_20x1e8, which the second replaces. *)
From Coq Require Import Reals.
From stdpp Require Import base tactics list numbers.
From Verif Require Import Fld Py Herm OptModel SigModel.
Local Open Scope fld_scope.

Record tri := Tri { t_z : list C_fld; t_p : list C_fld; t_k : C_fld }.

(** 173-183 zpk_mult; np.concatenate of an empty list raises *)
Definition zpk_mult (l : list tri) : res tri :=
  match l with
  | [] => Err ValueError
  | _ => Ok (foldl (fun acc t => Tri (t_z acc ++ t_z t) (t_p acc ++ t_p t) (t_k acc * t_k t)) (Tri [] [] 1) l)
  end.
(** 186-200 zpk_div *)
Definition zpk_div (n d : tri) : tri := Tri (t_z n ++ t_p d) (t_p n ++ t_z d) (1 * t_k n / t_k d).

(** 203-216 sort_roots.  The roots are numpy numbers: a real part 0 gives inf or nan, which compare
    false with [tiny], the literal 1e-8 *)
Definition unresolved (tiny : R) (r : C_fld) : bool :=
  if Req_EM_T r.1 0 then false else if Rlt_dec (Rabs (r.2 / r.1)) tiny then true else false.
Definition sort_roots (tiny : R) (l : list C_fld) : list C_fld * list C_fld * list C_fld :=
  foldl (fun '(re, pos, neg) root =>
    if unresolved tiny root then (re ++ [cre root.1], pos, neg)
    else if Rlt_dec 0 root.2 then (re, pos ++ [root], neg) else (re, pos, neg ++ [root])) ([], [], []) l.
(** 219-233 zpk2rcpz_dict: roots and gain *)
Definition zpk2rcpz_dict (tiny : R) (t : tri) : zpk * C_fld :=
  let '(zr, zp, zn) := sort_roots tiny (t_z t) in
  let '(pr, pp, pn) := sort_roots tiny (t_p t) in
  (Zpk zr zp pr pp, t_k t).
(** 255-267 zpk_convert; with the output 'SRationalFilter' the keyword arguments of an SRationalFilter,
    which has no delay then; None for any other output *)
Inductive zout := OutZpk | OutRational | OutOther.
Inductive zres := RZpk (t : tri) | RRational (r : rational) | RNone.
Definition zpk_convert (tiny UGF : R) (t : tri) (o : zout) : zres :=
  match o with
  | OutZpk => RZpk t
  | OutRational => RRational (Rational (zpk2rcpz_dict tiny t).1 (- (1)) None UGF)
  | OutOther => RNone
  end.

(** the value of a triple at s (scipy.signal.freqresp) *)
Definition prod_from (s : C_fld) (l : list C_fld) : C_fld := foldl (fun a r => a * (s - r)) 1 l.
Definition freqresp (t : tri) (w : R) : C_fld := t_k t * prod_from (ci * cre w) (t_z t) / prod_from (ci * cre w) (t_p t).

(** z.extend, p.extend and k = k * ..: one of scipy's filters is put in, or its inverse *)
Definition put (t c : tri) : tri := Tri (t_z t ++ t_z c) (t_p t ++ t_p c) (t_k t * t_k c).
Definition put_inv (t c : tri) : tri := Tri (t_z t ++ t_p c) (t_p t ++ t_z c) (t_k t / t_k c).
Definition start : tri := Tri [] [] 1.
(** 31-40, 73-82, 120-129, 161-170: the common end of the functions *)
Definition scale_to (F_center shift : R) (t : tri) : tri :=
  let c := cre (F_center / shift) in
  let t' := Tri ((fun r => c * r) <$> t_z t) ((fun r => c * r) <$> t_p t) (c * t_k t) in
  Tri (t_z t') (t_p t') (t_k t' / (C_abs (freqresp t' F_center) : C_fld)).

Section designs.
  (** cheby1(N, ripple, corner) and butter(N, corner) *)
  Context (cheby1 : nat -> R -> R -> tri) (butter : nat -> R -> tri).
  Definition cx (a b : R) : C_fld := (a, b).
  (** 11-40 cheby_boost_7 *)
  Definition cheby_boost_7 (F_center shift : R) : tri :=
    let t := put_inv start (cheby1 7 (2 / 10) 1) in
    let t := Tri (t_z t ++ [cx (-1) 1]) (t_p t ++ [cx (-1 / 10) 1]) (t_k t) in
    let t := Tri (t_z t) (t_p t ++ replicate 7 (cre (-1 / 100))) (t_k t) in
    scale_to F_center shift t.
  (** 43-82 ledge_controller *)
  Definition ledge_controller (F_center shift : R) (N : nat) : tri :=
    let t := put_inv start (cheby1 N (3 / 10) 1) in
    let t := put t (cheby1 (N + 2) (3 / 10) 1) in
    let t := put_inv t (butter 2 2) in
    let t := put t (cheby1 1 1 3) in
    scale_to F_center shift t.
  (** 85-129 ledge_boost *)
  Definition ledge_boost (F_center shift : R) (N : nat) : tri :=
    let t := put_inv start (cheby1 N (3 / 10) 1) in
    let t := put t (cheby1 (N + 2) (3 / 10) 1) in
    let t := put_inv t (butter 3 2) in
    let t := put t (cheby1 1 1 3) in
    let t := Tri (t_z t ++ [cx (-24 / 10) (15 / 10)] ++ [cx (-24 / 10) (-15 / 10)])
                 (t_p t ++ [cx (-12 / 10) (15 / 10)] ++ [cx (-12 / 10) (-15 / 10)]) (t_k t) in
    scale_to F_center shift t.
  (** 132-170 cheby_boost *)
  Definition cheby_boost (F_center shift : R) : tri :=
    let t := put_inv start (cheby1 3 (2 / 10) (8 / 10)) in
    let t := put_inv t (cheby1 3 (2 / 10) 1) in
    let t := Tri (t_z t ++ [cx (-7 / 10) 1] ++ [cx (-7 / 10) (-1)]) (t_p t ++ [cx (-2 / 10) 1] ++ [cx (-2 / 10) (-1)]) (t_k t) in
    let t := Tri (t_z t) (t_p t ++ replicate 6 (cre (-1 / 100))) (t_k t) in
    scale_to F_center shift t.

  (** 270-291 controller_10x1e3_20x1e8 (the second of that name), 294-313 controller_20x1e9,
      316-334 controller_fast_2p5x1e1; the output 'zpk', see zpk_convert for the other *)
  Definition controller_10x1e3_20x1e8 (UGF shift : R) : res tri :=
    zpk_mult [ledge_controller UGF (shift * 15) 3; ledge_boost UGF (shift * 15) 3; ledge_boost UGF (shift * 20) 3;
      ledge_boost UGF (shift * 15) 3; ledge_boost UGF (shift * 20) 3;
      Tri [cre (- UGF / shift)] [cre (-1 / 1000)] (cre (-7 / 10));
      Tri [cre (- UGF * 3)] [cx (- UGF * 3) (- (3 * UGF)); cx (- UGF * 3) (3 * UGF)] (cre 3000)].
  Definition controller_20x1e9 (UGF : R) : res tri :=
    zpk_mult [ledge_controller UGF 20 3; ledge_boost UGF 20 3; ledge_boost UGF 20 3; ledge_boost UGF 20 3;
      ledge_boost UGF 25 3; ledge_boost UGF 25 3; ledge_boost UGF 25 3;
      Tri [cre (- UGF)] [cre (-1 / 1000)] (cre (-7 / 10));
      Tri [cre (- UGF * 3)] [cx (- UGF * 3) (- (3 * UGF)); cx (- UGF * 3) (3 * UGF)] (cre 3000)].
  Definition controller_fast_2p5x1e1 (UGF : R) : res tri :=
    let pp := [cx (- UGF * (8 / 10)) (- UGF); cx (- UGF * (8 / 10)) UGF] in
    let zp := [cx (- UGF * (5 / 10)) (- UGF); cx (- UGF * (5 / 10)) UGF] in
    let times c (l : list C_fld) := (fun r => r * cre c) <$> l in
    zpk_mult [ledge_controller UGF 7 3; ledge_boost UGF 4 3;
      Tri [cx (- UGF / 8) (- (UGF / 8)); cx (- UGF / 8) (UGF / 8)] [cre (-1 / 1000); cre (-1 / 1000)] 1;
      Tri (times (6 / 10)%R pp) (times (6 / 10)%R zp) (cre (8 / 10));
      Tri (times (3 / 10)%R zp) (times (3 / 10)%R pp) 1;
      Tri [cre (- UGF * 3)] [cx (- UGF * 3) (- (3 * UGF)); cx (- UGF * 3) (3 * UGF)] (cre 180)].
End designs.

(** 375-383 shift_to *)
Definition shift_to (t : tri) (to_freq : R) : tri :=
  let newZ := (fun z => z + cre to_freq * ci) <$> t_z t in
  let newP := (fun p => p + cre to_freq * ci) <$> t_p t in
  Tri (newZ ++ (cconj <$> newZ) ++ [cre (- to_freq / 2)]) (newP ++ (cconj <$> newP) ++ [cre (- to_freq * (8 / 10))]) (t_k t * t_k t).
