(** Model of the bit enumeration in phasor/math/numerics.py.  Python ints are
    unbounded: Z. *)
From Coq Require Import ZArith.
From stdpp Require Import base tactics list numbers.
From Verif Require Import Py.
Local Open Scope Z_scope.

(** numerics.py:28-44 _generate_bitfill.  The while loop runs p-1 times; entries
    not reached stay None. *)
Fixpoint bitfill_loop (steps : nat) (p num n : Z) (tbl : list (option Z)) : list (option Z) :=
  match steps with
  | O => tbl
  | S steps => bitfill_loop steps p ((num * 2) mod p) (n + 1) (<[Z.to_nat num := Some n]> tbl)
  end.
Definition generate_bitfill (p : nat) : list (option Z) :=
  bitfill_loop (p - 1) (Z.of_nat p) 1 0 (replicate p None).

(** numerics.py:47-48 *)
Definition bit_lookup_37 : list (option Z) := generate_bitfill 37.
Definition bit_lookup_37_max : Z := Z.shiftl 1 36.

(** numerics.py:58-61, the inner while *)
Fixpoint downshift (fuel : nat) (shift num numbit : Z) : res (Z * Z * Z) :=
  if decide (bit_lookup_37_max <= numbit) then
    match fuel with
    | O => Err OutOfFuel
    | S fuel => downshift fuel (shift + 36) (Z.shiftr num 36) (Z.shiftr numbit 36)
    end
  else Ok (shift, num, numbit).

(** numerics.py:50-64 yield_bits_on; the yielded values are collected.  A lookup
    that hits an unfilled (None) entry raises TypeError in [None + shift]. *)
Fixpoint bits_loop (fuel : nat) (shift num : Z) (out : list Z) : res (list Z) :=
  if decide (num = 0) then Ok out
  else
    match fuel with
    | O => Err OutOfFuel
    | S fuel =>
      let numbit := Z.shiftr (Z.lxor num (num - 1) + 1) 1 in
      '(shift, num, numbit) ← downshift (S fuel) shift num numbit;
      match bit_lookup_37 !! Z.to_nat (numbit mod 37) with
      | Some (Some v) => bits_loop fuel shift (Z.lxor num numbit) (out ++ [v + shift])
      | Some None => Err TypeError
      | None => Err IndexError
      end
    end.
Definition yield_bits_on (fuel : nat) (num : Z) : res (list Z) := bits_loop fuel 0 num [].

