(** Model of the labels of /repo/phasor/alm/utils.py 105-149: unit_str and str_m.  Numbers are exact
    fractions, without rounding; inf and nan are left out.  The text is the triple of its digits, its
    number of decimals and its prefix, so that "1.25m" is (125, 2, Milli); the unit that follows, and
    the sign of a zero, are left out. *)
From Coq Require Import ZArith QArith Qround Qabs.
From Verif Require Import Py.

Inductive prefix := Kilo | Unity | Centi | Milli | Micro | Nano | Femto | Atto | Zepto.
Record label := Label { digits : Z; decimals : Z; pre : prefix }.
(** x > y *)
Definition gtb (x y : Q) : bool := negb (Qle_bool x y).
(** the integer nearest to x, the even one of two: the formatting "{:.df}" of x 10^-d *)
Definition round_even (x : Q) : Z :=
  let f := Qfloor x in
  let r := x - inject_Z f in
  if gtb (1 # 2) r then f else if gtb r (1 # 2) then (f + 1)%Z else if Z.even f then f else (f + 1)%Z.
(** 108-137; without a branch div is unbound, an UnboundLocalError *)
Definition scale (v : Q) (use_c : bool) : res (prefix * Q) :=
  if gtb v 1000 then Ok (Kilo, 1000)
  else if gtb v 1 then Ok (Unity, 1)
  else if gtb v (1 # 100) && use_c then Ok (Centi, 100)
  else if gtb v (1 # 1000) then Ok (Milli, 1 # 1000)
  else if gtb v (1 # 1000000) then Ok (Micro, 1 # 1000000)
  else if gtb v (1 # 1000000000) then Ok (Nano, 1 # 1000000000)
  else if gtb v (1 # 1000000000000000) then Ok (Femto, 1 # 1000000000000000)
  else if gtb v (1 # 1000000000000000000) then Ok (Atto, 1 # 1000000000000000000)
  else if gtb v (1 # 1000000000000000000000) then Ok (Zepto, 1 # 1000000000000000000000)
  else if Qeq_bool v 0 then Ok (Unity, 1)
  else Err UnboundLocalError.
(** 138-145 *)
Definition fewer (nval : Q) (d : Z) : Z :=
  let d := if gtb nval 100 then (d - 2)%Z else if gtb nval 10 then (d - 1)%Z else d in
  if (d <? 0)%Z then 0%Z else d.
Definition unit_str (val : Q) (d : Z) (use_c : bool) : res label :=
  match scale (Qabs val) use_c with
  | Ok (p, div) =>
      let nval := val / div in
      let d := fewer nval d in
      Ok (Label (round_even (val / div * inject_Z (10 ^ d))) d p)
  | Err e => Err e
  end.
