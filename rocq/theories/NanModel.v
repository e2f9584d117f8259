(** Model of first_non_NaN, /repo/phasor/utilities/np.py 145-161.  The array enters by whether each of its
    values is a NaN. *)
From Coq Require Import List Arith.
From Verif Require Import Py.
Import ListNotations.

(** 151-160.  idx_lower is 0 until N / 2, a float, is added to it; the loop is then entered again, as
    N > 1, and the array read at a float, an IndexError.  [fuel] bounds the doublings of N *)
Fixpoint search (fuel : nat) (arr : list bool) (idx_upper N : nat) : res nat :=
  match fuel with
  | O => Err OutOfFuel
  | S fuel =>
      if Nat.ltb (0 + N) idx_upper then
        match nth_error arr (0 + N) with
        | None => Err IndexError
        | Some false => if Nat.eqb N 1 then Ok (0 + 1) else Err IndexError
        | Some true => search fuel arr idx_upper (N * 2)
        end
      else Ok idx_upper
  end.
(** 145-161 *)
Definition first_non_NaN (arr : list bool) : res nat :=
  match arr with
  | [] => Err IndexError
  | false :: _ => Ok 0
  | true :: _ => search (S (length arr)) arr (length arr) 1
  end.
