(** Theorems about systems cut at boundaries.  C95. *)
From stdpp Require Import base tactics list numbers.
From Coq Require Import Reals.
From Verif Require Import Fld Py AlmModel AlmSpec CutModel CutSpec CutFinal.
Local Open Scope R_scope.

Theorem C95_defined n0 e bl br l : ordered l ->
  ((exists r, pairings n0 e bl br l = Ok r) <->
   clear_left bl l /\ clear_right br l /\ (l = [] -> bl = None) /\ (kept bl br l = [] -> (if e then bl else br) = None)).
Proof. eapply C95_defined_lem. Qed.
Theorem C95_meaning n0 env r bl br l t : ordered (placed n0 (xorb env r) l) -> kept bl br l <> [] -> cut n0 env r bl br l = Ok t ->
  exists cs, t = Node cs /\
    build n0 env (CPlaced r (mark bl ++ kept bl br l ++ mark br)) =
    Node (marked (if xorb env r then br else bl) ++ cs ++ marked (if xorb env r then bl else br)).
Proof. eapply C95_meaning_lem. Qed.
Theorem C95_positions n0 e bl br l ps cs : ordered l -> pairings n0 e bl br l = Ok (ps, cs) ->
  ps = positions 0 cs /\
  exists start, (forall b, (if e then br else bl) = Some b -> start = b) /\
    forall x c, (x, c) ∈ kept bl br l ->
      exists i, cs !! i = Some c /\ ps !! i = Some (if e then start - (x + width c) else x - start).
Proof. eapply C95_positions_lem. Qed.
Theorem C95_width n0 e a b l ps cs : ordered l -> pairings n0 e (Some a) (Some b) l = Ok (ps, cs) -> width (Node cs) = b - a.
Proof. eapply C95_width_lem. Qed.
Theorem C95_glue n0 e a x b l p1 c1 p2 c2 : ordered l -> le_opt a (Some x) -> le_opt (Some x) b ->
  kept a (Some x) l <> [] -> kept (Some x) b l <> [] ->
  pairings n0 e a (Some x) l = Ok (p1, c1) -> pairings n0 e (Some x) b l = Ok (p2, c2) ->
  exists p c, pairings n0 e a b l = Ok (p, c) /\ width (Node c) = width (Node c1) + width (Node c2) /\
    val (matrix (Node c)) = if e then mmul (val (matrix (Node c1))) (val (matrix (Node c2)))
                            else mmul (val (matrix (Node c2))) (val (matrix (Node c1))).
Proof. eapply C95_glue_lem. Qed.
Theorem C95_reversal n0 env r bl br l t ra : n0 <> 0 -> (forall x, x ∈ l -> comp_ok (snd x) /\ no_generic (snd x)) ->
  ordered (placed n0 (xorb env r) l) -> kept bl br l <> [] -> cut n0 env r bl br l = Ok t ->
  exists t', cut n0 (negb env) r bl br l = Ok t' /\ width t' = width t /\
    ray (val (matrix t')) (back (ray (val (matrix t)) ra)) = back ra.
Proof. eapply C95_reversal_lem. Qed.
(** a boundary where a component ends is refused, though nothing is cut *)
Theorem C95_end_refuted : exists n0 l b, ordered l /\ kept None (Some b) l <> [] /\ kept (Some b) None l <> [] /\
  (forall x, x ∈ l -> fst x + width (snd x) <= b \/ b <= fst x) /\
  pairings n0 false None (Some b) l = Err NotImplemented /\ pairings n0 false (Some b) None l = Err NotImplemented.
Proof. eapply C95_end_refuted_lem. Qed.
(** a boundary at a part without length is good on the left and refused on the right *)
Theorem C95_thin_refuted : exists n0 l b, ordered l /\ kept (Some b) None l <> [] /\
  (forall x, x ∈ l -> fst x + width (snd x) < b \/ fst x = b /\ width (snd x) = 0) /\
  pairings n0 false None (Some b) l = Err NotImplemented /\ exists r, pairings n0 false (Some b) None l = Ok r.
Proof. eapply C95_thin_refuted_lem. Qed.
(** the empty stretch between two components cannot be had *)
Theorem C95_gap_refuted : exists n0 l a b, ordered l /\ clear_left (Some a) l /\ clear_right (Some b) l /\ a < b /\
  pairings n0 false (Some a) (Some b) l = Err TypeError.
Proof. eapply C95_gap_refuted_lem. Qed.
Example C95_example : exists n0 l a b x t, n0 <> 0 /\ (forall x, x ∈ l -> comp_ok (snd x) /\ no_generic (snd x)) /\
  ordered (placed n0 (xorb false true) l) /\ le_opt (Some a) (Some x) /\ le_opt (Some x) (Some b) /\
  kept (Some a) (Some x) l <> [] /\ kept (Some x) (Some b) l <> [] /\ length (kept (Some a) (Some b) l) <> length l /\
  cut n0 false true (Some a) (Some b) l = Ok t.
Proof. eapply C95_example_lem. Qed.
Example C95_example_glue : exists n0 l a x b p1 p2, ordered l /\ le_opt a (Some x) /\ le_opt (Some x) b /\
  kept a (Some x) l <> [] /\ kept (Some x) b l <> [] /\
  pairings n0 true a (Some x) l = Ok p1 /\ pairings n0 true (Some x) b l = Ok p2.
Proof. eapply C95_example_glue_lem. Qed.

Print Assumptions C95_defined.
Print Assumptions C95_meaning.
Print Assumptions C95_positions.
Print Assumptions C95_width.
Print Assumptions C95_glue.
Print Assumptions C95_reversal.
Print Assumptions C95_end_refuted.
Print Assumptions C95_thin_refuted.
Print Assumptions C95_gap_refuted.
