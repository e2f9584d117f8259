(** Model of the array helpers of phasor/utilities/np.py. *)
From stdpp Require Import base tactics numbers sorting list.
From Verif Require Import Py.

(** np.argwhere of a boolean array, as positions starting at [k] *)
Fixpoint argwhere (k : nat) (l : list bool) : list nat :=
  match l with [] => [] | x :: l => if x then k :: argwhere (S k) l else argwhere (S k) l end.
(** the slices l[0::2] and l[1::2] *)
Fixpoint evens {A} (l : list A) : list A :=
  match l with [] => [] | [x] => [x] | x :: _ :: l => x :: evens l end.
Definition odds {A} (l : list A) : list A := evens (tail l).
(** the loop of lines 254-260: [prev] is the section before *)
Fixpoint gaps (r : nat) (prev : nat * nat) (l : list (nat * nat)) : list nat :=
  match l with
  | [] => []
  | cur :: l => (if decide (r < fst cur - snd prev)%nat then [snd prev; fst cur] else []) ++ gaps r cur l
  end.
(** utilities/np.py 236-262 generate_sections; positions are naturals, so is the length *)
Definition generate_sections (barray : list bool) (reconnect_length : option nat) : res (list (nat * nat)) :=
  let dbarray := zip_with xorb (tail barray) barray in
  let args := S <$> argwhere 0 dbarray in
  match head barray, last barray with
  | Some b0, Some b1 =>
      let args := (if b0 then [0%nat] else []) ++ args ++ (if b1 then [(length barray - 1)%nat] else []) in
      if decide (length args `mod` 2 = 0)%nat then
        let sections := zip (evens args) (odds args) in
        match sections, last sections, reconnect_length with
        | s0 :: l, Some s1, Some r =>
            let disconnects := fst s0 :: gaps r s0 l ++ [snd s1] in
            Ok (zip (evens disconnects) (odds disconnects))
        | _, _, _ => Ok sections
        end
      else Err AssertionError
  | _, _ => Err IndexError
  end.
(** 264-280 generate_antisections *)
Definition generate_antisections (idx_start idx_end : nat) (sections : list (nat * nat)) : list (nat * nat) :=
  match sections with
  | [] => [(idx_start, idx_end)]
  | _ =>
      let disconnects := sections ≫= fun s => [fst s; snd s] in
      let disconnects :=
        match disconnects with
        | d0 :: l => if decide (d0 = idx_start) then l else idx_start :: disconnects
        | [] => []
        end in
      let disconnects :=
        match last disconnects with
        | Some d1 => if decide (d1 = idx_end) then take (length disconnects - 1) disconnects else disconnects ++ [idx_end]
        | None => []
        end in
      zip (evens disconnects) (odds disconnects)
  end.

(** 10-28 domain_sort: one row is a sample of X with its samples of the Y (each as long as X,
    none of length 1 and none missing).  np.argsort is a parameter: it may order equal samples
    in any way. *)
Fixpoint nondecreasing (l : list Z) : bool :=
  match l with x :: (y :: _) as l' => if decide (x <= y)%Z then nondecreasing l' else false | _ => true end.
Definition domain_sort {A} (argsort : list Z -> list nat) (X : list Z) (Y : list A) : list Z * list A :=
  if nondecreasing X then (X, Y)
  else
    let idx := argsort X in
    (omap (fun i => X !! i) idx, omap (fun i => Y !! i) idx).
(** 30-33 interval_limit *)
Definition interval_limit {A} (x_min x_max : Z) (X : list Z) (Y : list A) : list Z * list A :=
  let idx := argwhere 0 ((fun x => bool_decide (x_min <= x <= x_max)%Z) <$> X) in
  (omap (fun i => X !! i) idx, omap (fun i => Y !! i) idx).
