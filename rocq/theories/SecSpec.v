(** Vocabulary of SecProps.v. *)
From stdpp Require Import base tactics numbers sorting list.

(** [i] lies in one of the half-open intervals *)
Definition covered (l : list (nat * nat)) (i : nat) : Prop := exists s e, (s, e) ∈ l /\ s <= i < e.
(** increasing, and apart from one another *)
Fixpoint apart (l : list (nat * nat)) : Prop :=
  match l with
  | [] => True
  | x :: l => fst x <= snd x /\ match l with [] => True | y :: _ => snd x < fst y end /\ apart l
  end.
(** increasing, possibly touching, from [a] to [b] *)
Fixpoint within (a b : nat) (l : list (nat * nat)) : Prop :=
  match l with [] => a <= b | (s, e) :: l => a <= s /\ s <= e /\ within e b l end.
(** [i] lies in the gap between two neighbours, and the gap is at most [r] long *)
Definition small_gap (r : nat) (l : list (nat * nat)) (i : nat) : Prop :=
  exists k s e s' e', l !! k = Some (s, e) /\ l !! S k = Some (s', e') /\ s' - e <= r /\ e <= i < s'.
(** an order of the samples that argsort may return *)
Definition sorts (argsort : list Z -> list nat) : Prop :=
  forall l, argsort l ≡ₚ seq 0 (length l) /\ Sorted Z.le (omap (fun i => l !! i) (argsort l)).
