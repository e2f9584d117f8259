(** What a label says. *)
From Coq Require Import ZArith QArith Qabs.
From Verif Require Import LblModel.

(** the prefixes of the SI *)
Definition si (p : prefix) : Q :=
  match p with
  | Kilo => 1000 | Unity => 1 | Centi => 1 # 100 | Milli => 1 # 1000 | Micro => 1 # 1000000 | Nano => 1 # 1000000000
  | Femto => 1 # 1000000000000000 | Atto => 1 # 1000000000000000000 | Zepto => 1 # 1000000000000000000000
  end.
(** the number before the prefix, and the value a reader takes from the label *)
Definition number (t : label) : Q := inject_Z (digits t) / inject_Z (10 ^ decimals t).
Definition reads (t : label) : Q := number t * si (pre t).
(** below this no prefix is left *)
Definition tiny : Q := 1 # 1000000000000000000000.
