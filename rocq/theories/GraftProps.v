(** C57 and C73: names and regeneration of element trees (phasor/base/autograft.py). *)
From Coq Require Import Lia.
From stdpp Require Import base tactics numbers list.
From Verif Require Import Fld Py Herm NoiModel NoiProofs GraftModel GraftSpec GraftProofs GraftProofs2 GraftProofs3 GraftFinal.

(** The dotted name of an element, looked up from the root, gives that element and changes nothing. *)
Theorem C57_resolve s p u : reached s -> p <> [] -> uid_at (s_root s) p = Some u -> getitem (join_dot p) s = (s, Ok u).
Proof. eapply C57_resolve_lem. Qed.
(** Different elements have different dotted names. *)
Theorem C57_names s p q u v : reached s -> p <> [] -> q <> [] -> uid_at (s_root s) p = Some u -> uid_at (s_root s) q = Some v -> join_dot p = join_dot q -> p = q /\ u = v.
Proof. eapply C57_names_lem. Qed.
(** An element is at one place of the tree only. *)
Theorem C57_unique s p q u : reached s -> uid_at (s_root s) p = Some u -> uid_at (s_root s) q = Some u -> p = q.
Proof. eapply C57_unique_lem. Qed.
(** The children of an element have different names, none with a dot. *)
Theorem C57_siblings s p e : reached s -> at_path p (s_root s) = Some e -> NoDup (e_children e).*1 /\ Forall plain (e_children e).*1.
Proof. eapply C57_siblings_lem. Qed.
(** A name with a dot is rejected and the tree has the same elements. *)
Theorem C57_dots s p n c : ~ plain n -> is_Some (at_path p (s_root s)) ->
  (insert_at p n c s).2 = Err RuntimeError /\ forall q, uid_at (s_root (insert_at p n c s).1) q = uid_at (s_root s) q /\ class_at (s_root (insert_at p n c s).1) q = class_at (s_root s) q.
Proof. eapply C57_dots_lem. Qed.
(** Inserting gives a new element at that name; everything not under that name stays where it was. *)
Theorem C57_insert s p n cls own : reached s -> good_ctor (Ctor cls own) -> plain n -> is_Some (at_path p (s_root s)) -> let s' := (insert_at p n (Ctor cls own) s).1 in
  exists u, (insert_at p n (Ctor cls own) s).2 = Ok u /\ uid_at (s_root s') (p ++ [n]) = Some u /\ class_at (s_root s') (p ++ [n]) = Some cls /\
  (forall q, uid_at (s_root s) q <> Some u) /\
  forall q, ~ (p ++ [n]) `prefix_of` q -> uid_at (s_root s') q = uid_at (s_root s) q /\ class_at (s_root s') q = class_at (s_root s) q.
Proof. eapply C57_insert_lem. Qed.
(** A name that is not there raises KeyError and changes nothing, as long as nothing is waiting to be regenerated. *)
Theorem C57_missing c s p : good_ctor c -> grown c s -> p <> [] -> Forall plain p -> at_path p (s_root s) = None -> getitem (join_dot p) s = (s, Err KeyError).
Proof. eapply C57_missing_lem. Qed.
Example C57_ex : reached ex_s /\ uid_at (s_root ex_s) [ex_a; ex_b; ex_b; ex_a] = Some 4 /\ ~ plain ex_dot /\ good_ctor ex_c /\ plain ex_a /\ grown ex_c ex_s /\ at_path [ex_b; ex_a] (s_root ex_s) = None.
Proof. eapply C57_ex_lem. Qed.

(** Regenerating a tree that has only been added to gives an element of the same class under every name and none besides, and keeps the electrical bonds; this
    for as many regenerations as one likes, with additions between. *)
Theorem C73_regenerate c s fuel p : good_ctor c -> grown c s -> height (s_root s) <= fuel ->
  (regenerate fuel c s).2 = None /\ class_at (s_root (regenerate fuel c s).1) p = class_at (s_root s) p /\ ebonds_at (s_root (regenerate fuel c s).1) p = ebonds_at (s_root s) p.
Proof. eapply C73_regenerate_lem. Qed.
(** The first regeneration keeps the optical bonds. *)
Theorem C73_bonds c s fuel p : good_ctor c -> grown c s -> s_old s = None -> height (s_root s) <= fuel -> bond_at (s_root (regenerate fuel c s).1) p = bond_at (s_root s) p.
Proof. eapply C73_bonds_lem. Qed.
(** An optical bond made since the last regeneration is kept by the next. *)
Theorem C73_bond_kept c s fuel p q : good_ctor c -> grown c s -> (bond_inform p q s).2 = None -> let s' := (bond_inform p q s).1 in
  height (s_root s') <= fuel -> bond_at (s_root (regenerate fuel c s').1) p = Some q.
Proof. eapply C73_bond_kept_lem. Qed.
(** Further regenerations lose it: _building_bonded of the new port stays True. *)
Theorem C73_bonds_refuted : exists c s p, good_ctor c /\ grown c s /\ bond_at (s_root s) p <> None /\
  forall fuel, height (s_root s) <= fuel -> bond_at (s_root (regenerate fuel c s).1) p = None.
Proof. eapply C73_bonds_refuted_lem. Qed.
(** An element inserted over a part of the class is replaced by the part again. *)
Theorem C73_override_refuted : exists c s p, good_ctor c /\ (exists os, s = run os (start c None).1) /\ class_at (s_root s) p = Some 3 /\
  class_at (s_root (regenerate 9 c s).1) p = Some 2 /\ (regenerate 9 c s).2 = None.
Proof. eapply C73_override_refuted_lem. Qed.
(** A rejected name with a dot makes every regeneration raise. *)
Theorem C73_rejected_refuted : exists c s n c', good_ctor c /\ grown c s /\ ~ plain n /\ (insert_at [] n c' s).2 = Err RuntimeError /\
  (regenerate 9 c s).2 = None /\ (regenerate 9 c (insert_at [] n c' s).1).2 = Some RuntimeError.
Proof. eapply C73_rejected_refuted_lem. Qed.
(** An added element first fetched while building is found then, and lost by the next regeneration. *)
Theorem C73_fetched_refuted : exists c s x u, good_ctor c /\ grown c s /\
  let s1 := enter (start c (Some (s_root s))).1 in (getitem x s1).2 = Ok u /\
  let s2 := (complete_root 9 (leave (getitem x s1).1)).1 in class_at (s_root s2) [x] = class_at (s_root s) [x] /\ class_at (s_root s) [x] = Some 6 /\
  class_at (s_root (regenerate 9 c s2).1) [x] = None.
Proof. eapply C73_fetched_refuted_lem. Qed.
(** Completing a regenerated tree again, after an insertion, repeats the electrical bonds. *)
Theorem C73_repeated_refuted : exists c s p, good_ctor c /\ grown c s /\ ebonds_at (s_root s) p = [[ex_a]] /\
  let s1 := (regenerate 9 c s).1 in let s2 := (insert_at p ex_b (Ctor 7 []) s1).1 in
  ebonds_at (s_root s1) p = [[ex_a]] /\ ebonds_at (s_root (complete_root 9 s2).1) p = [[ex_a]; [ex_a]].
Proof. eapply C73_repeated_refuted_lem. Qed.
(** with-blocks of building nest: whatever blocks have been entered and left inside one, what is inserted in it is not remembered for regeneration; after the
    outermost is left, it is. *)
Theorem C73_building s os p n c : nested os -> let s1 := run os (enter s) in is_Some (at_path p (s_root s1)) ->
  recorded (insert_at p n c s1).1 p = recorded s1 p /\
  (s_building s = 0 -> dict_get n (recorded (insert_at p n c (leave s1)).1 p) = Some c).
Proof. eapply C73_building_lem. Qed.
Example C73_building_ex : nested [Enter; Insert [] ex_a (Ctor 3 []); Leave; GetItem ex_a] /\
  (class_at (s_root (run [Enter; Enter; Leave; Insert [] [99] (Ctor 8 []); Leave] ex_start)) [[99]] = Some 8 /\
   class_at (s_root (regenerate 9 ex_c (run [Enter; Enter; Leave; Insert [] [99] (Ctor 8 []); Leave] ex_start)).1) [[99]] = None).
Proof. eapply C73_building_ex_lem. Qed.
Example C73_ex : good_ctor ex_c /\ grown ex_c ex_s /\ grown ex_c (regenerate 9 ex_c ex_s).1 /\ s_old ex_s = None /\ height (s_root ex_s) = 5 /\
  class_at (s_root ex_s) [ex_a; ex_b; ex_b; ex_a] = Some 5 /\ bond_at (s_root ex_s) [ex_b] = Some [ex_a; ex_b] /\ (bond_inform [ex_a] [ex_b] ex_s).2 = None.
Proof. eapply C73_ex_lem. Qed.

Print Assumptions C57_resolve.
Print Assumptions C57_names.
Print Assumptions C57_unique.
Print Assumptions C57_siblings.
Print Assumptions C57_dots.
Print Assumptions C57_insert.
Print Assumptions C57_missing.
Print Assumptions C73_regenerate.
Print Assumptions C73_bonds.
Print Assumptions C73_bond_kept.
Print Assumptions C73_bonds_refuted.
Print Assumptions C73_override_refuted.
Print Assumptions C73_rejected_refuted.
Print Assumptions C73_fetched_refuted.
Print Assumptions C73_repeated_refuted.
Print Assumptions C73_building.
