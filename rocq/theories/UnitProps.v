(** Theorems about unitful values.  C58, C71. *)
From stdpp Require Import base tactics numbers gmap strings list.
From Coq Require Import Qcanon.
From Verif Require Import Fld Py UnitModel UnitSpec UnitProofs UnitFinal.
Local Open Scope fld_scope.

Section props.
Context {K : fld}.
Implicit Types (u : unit_ K) (a b c : pv K).
Add Field FKUP : (f_theory K).

(** a sum or difference has the unit of the left side, adds the amounts, and exists only for
    equal dimensions *)
Theorem C58_add n a b c : ok a -> ok b -> padd n a b = Ok c ->
  (forall k, amount k c = if n then amount k a - amount k b else amount k a + amount k b) /\
  (forall k s, power k c s = power k a s) /\ (forall k s, power k b s = power k a s).
Proof. eapply C58_add_lem. Qed.
Theorem C58_add_defined n v r u v' r' u' : unit_ok u -> unit_ok u' ->
  (forall s, expo (dims u) s = expo (dims u') s) ->
  let s := scale u' / scale u in
  padd n (flat v r u) (flat v' r' u') = Ok (flat (if n then v - v' * s else v + v' * s) (if n then r - r' * s else r + r' * s) u).
Proof. eapply C58_add_defined_lem. Qed.
Theorem C58_add_raises n v r u v' r' u' s : unit_ok u -> unit_ok u' -> expo (dims u) s <> expo (dims u') s ->
  padd n (flat v r u) (flat v' r' u') = Err AssertionError.
Proof. eapply C58_add_raises_lem. Qed.
Theorem C58_add_number n v r u x : padd n (flat v r u) (Num x) = Err AttributeError /\ padd n (Num x) (flat v r u) = Err TypeError.
Proof. eapply C58_add_number_lem. Qed.
Theorem C58_mul a b : (forall k, amount k (pmul a b) = amount k a * amount k b) /\
  (forall k s, power k (pmul a b) s = (power k a s + power k b s)%Z).
Proof. eapply C58_mul_lem. Qed.
Theorem C58_scale x v r u : pmul (flat v r u) (Num x) = flat (v * x) (r * x) u /\ pmul (Num x) (flat v r u) = flat (x * v) (x * r) u.
Proof. eapply C58_scale_lem. Qed.
Theorem C58_neg n a b c : ok a -> ok b -> padd n a b = Ok c ->
  exists d, padd (negb n) a (pneg b) = Ok d /\ forall k, amount k d = amount k c.
Proof. eapply C58_neg_lem. Qed.

(** ** values in the configuration tree *)
Theorem C71_read n u : unit_ok u -> unit_ok (n_units n) -> dims (n_units n) = dims u ->
  exists v r, read n u = Ok (v, r) /\
    (fun x => x * scale u) <$> v = (fun x => x * scale (n_units n)) <$> n_val n /\
    (fun x => x * scale u) <$> r = (fun x => x * scale (n_units n)) <$> (match n_ref n with None => n_val n | Some r => r end).
Proof. eapply C71_read_lem. Qed.
Theorem C71_two_units n u1 u2 v1 v2 r1 r2 : unit_ok u1 -> unit_ok u2 -> unit_ok (n_units n) ->
  read n u1 = Ok (v1, r1) -> read n u2 = Ok (v2, r2) ->
  (fun x => x * scale u1) <$> v1 = (fun x => x * scale u2) <$> v2 /\ (fun x => x * scale u1) <$> r1 = (fun x => x * scale u2) <$> r2.
Proof. eapply C71_two_units_lem. Qed.
Theorem C71_raises n u s : unit_ok u -> unit_ok (n_units n) -> expo (dims (n_units n)) s <> expo (dims u) s -> n_val n <> None ->
  read n u = Err AssertionError.
Proof. eapply C71_raises_lem. Qed.
Theorem C71_inject u x y : unit_ok u ->
  read (inject u x y) u = Ok (Some x, Some y) /\ read (reinject u x) u = Ok (Some x, Some x) /\
  initial u (inject u x y) = Ok y /\ initial u (reinject u x) = Ok x.
Proof. eapply C71_inject_lem. Qed.
Theorem C71_initial u n v r : unit_ok u -> unit_ok (n_units n) -> read n u = Ok (v, Some r) -> initial u n = Ok r.
Proof. eapply C71_initial_lem. Qed.
Theorem C71_setup_unit p u u' x d : unit_ok u -> unit_ok u' -> dims u = dims u' ->
  exists n, setup p [WithUnit u x] d = Ok n /\ read n u' = Ok (Some (x * (scale u / scale u')), Some (x * (scale u / scale u'))).
Proof. eapply C71_setup_unit_lem. Qed.
Theorem C71_setup_group p u u' v r same d : unit_ok u -> unit_ok u' -> dims u = dims u' -> (same = true -> r = v) ->
  exists n, setup p [Preferred (Some (v, r, u)) same] d = Ok n /\ read n u' = Ok (Some (v * (scale u / scale u')), Some (r * (scale u / scale u'))).
Proof. eapply C71_setup_group_lem. Qed.
Theorem C71_setup_count (p : unit_ K) l d n : setup p l d = Ok n -> length l <= 1 /\ (l = [] -> d <> None).
Proof. eapply C71_setup_count_lem. Qed.
End props.

(** the unit of a product is only the unit of its left factor: metre times second cannot be added
    to a metre second *)
Theorem C58_mul_refuted : exists (a b c : pv Qc_fld), ok a /\ ok b /\ ok c /\
  (forall k, amount k (pmul a b) = amount k c) /\ (forall k s, power k (pmul a b) s = power k c s) /\
  padd false (pmul a b) c = Err AssertionError.
Proof. eapply C58_mul_refuted_lem. Qed.
Example C58_example : exists (u u' w : unit_ Qc_fld) s, unit_ok u /\ unit_ok u' /\ u <> u' /\ dims u = dims u' /\ unit_ok w /\ expo (dims u) s <> expo (dims w) s.
Proof. eapply C58_example_lem. Qed.

Print Assumptions C58_add.
Print Assumptions C58_add_defined.
Print Assumptions C58_add_raises.
Print Assumptions C58_add_number.
Print Assumptions C58_mul.
Print Assumptions C58_scale.
Print Assumptions C58_neg.
Print Assumptions C71_read.
Print Assumptions C71_two_units.
Print Assumptions C71_raises.
Print Assumptions C71_inject.
Print Assumptions C71_initial.
Print Assumptions C71_setup_unit.
Print Assumptions C71_setup_group.
Print Assumptions C71_setup_count.
Print Assumptions C58_mul_refuted.
