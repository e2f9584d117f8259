(** * phasor/base/autograft.py: trees of named elements.

    An element is a node of the tree below the root; an element replaced by another of the same
    name is no longer reachable and not represented.  Objects inserted are constructors
    (ElementConstructorInternal, 54-137): a class with the elements its __init__ gives itself through
    self.own.  Other objects, prototypes (replica_generate) and the configuration tree are not
    modelled.  The tree of which this one is a new incarnation does not change any more and has
    nothing pending.  Identity of elements is a number given at construction.  A name is its list
    of characters, '.' being 46. *)
From stdpp Require Import base tactics numbers list.
From Verif Require Import Py NoiModel.

Notation name := (list nat).
(** a class and what its __init__ inserts, in order *)
Inductive ctor := Ctor (cls : nat) (own : list (name * ctor)).
(** [inserted] and [pending] are _registry_inserted and _registry_inserted_pre; [done] is the
    epoch at which _is_completed was set, invalidate (350-363) of the root beginning a new epoch.
    Bonds: of an optical port the path of _bond_partner and _building_bonded (optics/ports.py 59-60),
    of an electrical port the list of _bond_partners with _bond_partners_building (electronics/ports.py 46-56). *)
Inductive elem := Elem (uid cls : nat) (children : list (name * elem)) (inserted pending : list (name * ctor))
  (done : option nat) (bond : option (list name)) (bbonded : bool) (ebonds : list (list name * bool)).
Definition e_uid (e : elem) := let '(Elem u _ _ _ _ _ _ _ _) := e in u.
Definition e_cls (e : elem) := let '(Elem _ c _ _ _ _ _ _ _) := e in c.
Definition e_children (e : elem) := let '(Elem _ _ c _ _ _ _ _ _) := e in c.
Definition e_inserted (e : elem) := let '(Elem _ _ _ i _ _ _ _ _) := e in i.
Definition e_pending (e : elem) := let '(Elem _ _ _ _ p _ _ _ _) := e in p.
Definition e_done (e : elem) := let '(Elem _ _ _ _ _ d _ _ _) := e in d.
Definition e_bond (e : elem) := let '(Elem _ _ _ _ _ _ b _ _) := e in b.
Definition e_bbonded (e : elem) := let '(Elem _ _ _ _ _ _ _ b _) := e in b.
Definition e_ebonds (e : elem) := let '(Elem _ _ _ _ _ _ _ _ b) := e in b.
Definition set_children (x : list (name * elem)) (e : elem) := let '(Elem u c _ i p d b bb eb) := e in Elem u c x i p d b bb eb.
Definition set_inserted (x : list (name * ctor)) (e : elem) := let '(Elem u c ch _ p d b bb eb) := e in Elem u c ch x p d b bb eb.
Definition set_pending (x : list (name * ctor)) (e : elem) := let '(Elem u c ch i _ d b bb eb) := e in Elem u c ch i x d b bb eb.
Definition set_done (x : option nat) (e : elem) := let '(Elem u c ch i p _ b bb eb) := e in Elem u c ch i p x b bb eb.
Definition set_bonds (b : option (list name)) (bb : bool) (eb : list (list name * bool)) (e : elem) :=
  let '(Elem u c ch i p d _ _ _) := e in Elem u c ch i p d b bb eb.
Definition child (n : name) (e : elem) : option elem := dict_get n (e_children e).
Definition put_child (n : name) (c : elem) (e : elem) : elem := set_children (dict_set n c (e_children e)) e.

(** '.' in name *)
Definition has_dot (n : name) : bool := existsb (Nat.eqb 46) n.
(** name.split('.') *)
Fixpoint split_dot (s : name) : list name :=
  match s with
  | [] => [[]]
  | c :: s => if Nat.eqb c 46 then [] :: split_dot s
              else match split_dot s with w :: ws => (c :: w) :: ws | [] => [[c]] end
  end.
(** name_system (232-237, 511-516) of the element at a path: the names joined by '.' *)
Fixpoint join_dot (p : list name) : name :=
  match p with [] => [] | [n] => n | n :: p => n ++ 46 :: join_dot p end.

(** 103-137 construct, with child_register 412-416; [pre] is inst_preincarnation of the new element
    (296-309), whose _registry_inserted is pending on it (311-323).  The element built so far is
    returned with an exception. *)
Fixpoint construct (c : ctor) (pre : option elem) (next : nat) : elem * nat * option exn :=
  let '(Ctor cls own) := c in
  (fix go (own : list (name * ctor)) (e : elem) (next : nat) : elem * nat * option exn :=
     match own with
     | [] => (e, next, None)
     | (n, c') :: own =>
         if has_dot n then (e, next, Some RuntimeError)
         else let '(ch, next, ex) := construct c' (pre ≫= child n) next in
              let e := put_child n ch e in
              match ex with Some x => (e, next, Some x) | None => go own e next end
     end) own (Elem next cls [] [] (default [] (e_inserted <$> pre)) None None true []) (S next).

(** 428-447 insert, without the invalidation; [building] is bool(self.building) *)
Definition insert (building : bool) (pre : option elem) (n : name) (c : ctor) (e : elem) (next : nat) : elem * nat * option exn :=
  let e := if building then e else set_inserted (dict_set n c (e_inserted e)) e in
  if has_dot n then (e, next, Some RuntimeError)
  else let '(ch, next, ex) := construct c (pre ≫= child n) next in (put_child n ch e, next, ex).

(** 338-345: the pending elements, last first; [todo] is the reversed rest *)
Fixpoint insert_pending (building : bool) (pre : option elem) (todo : list (name * ctor)) (e : elem) (next epoch : nat)
    : elem * nat * nat * option exn :=
  match todo with
  | [] => (set_pending [] e, next, epoch, None)
  | (n, c) :: todo =>
      let e := set_pending (rev todo) e in
      match child n e with
      | Some _ => insert_pending building pre todo e next epoch
      | None =>
          let e := set_inserted (dict_set n c (e_inserted e)) e in
          let '(e, next, ex) := insert building pre n c e next in
          match ex with Some x => (e, next, S epoch, Some x) | None => insert_pending building pre todo e next (S epoch) end
      end
  end.
(** optics/ports.py 62-72 and electronics/ports.py 34-44; the paths are not looked up *)
Definition carry_bonds (pre : option elem) (e : elem) : elem :=
  match pre with
  | None => e
  | Some p => set_bonds (match e_bond p with Some b => if e_bbonded p then e_bond e else Some b | None => e_bond e end) (e_bbonded e)
                (e_ebonds e ++ filter (fun x => x.2 = false) (e_ebonds p)) e
  end.
(** 333-348 _complete, over the elements to the depth [fuel] *)
Fixpoint complete (fuel : nat) (building : bool) (pre : option elem) (e : elem) (next epoch : nat) : elem * nat * nat * option exn :=
  match fuel with
  | O => (e, next, epoch, Some OutOfFuel)
  | S fuel =>
      if decide (e_done e = Some epoch) then (e, next, epoch, None)
      else
        let '(e, next, epoch, ex) := insert_pending building pre (rev (e_pending e)) (set_done (Some epoch) e) next epoch in
        match ex with
        | Some x => (e, next, epoch, Some x)
        | None =>
            let '(cs, next, epoch, ex) :=
              (fix go (cs : list (name * elem)) (next epoch : nat) : list (name * elem) * nat * nat * option exn :=
                 match cs with
                 | [] => ([], next, epoch, None)
                 | (n, c) :: cs =>
                     let '(c, next, epoch, ex) := complete fuel building (pre ≫= child n) c next epoch in
                     match ex with
                     | Some x => ((n, c) :: cs, next, epoch, Some x)
                     | None => let '(cs, next, epoch, ex) := go cs next epoch in ((n, c) :: cs, next, epoch, ex)
                     end
                 end) (e_children e) next epoch in
            let e := set_children cs e in
            match ex with Some x => (e, next, epoch, Some x) | None => (carry_bonds pre e, next, epoch, None) end
        end
  end.

(** 369-382 __getitem__ over the names of a split path; pending elements are inserted when met *)
Fixpoint walk (building : bool) (pre : option elem) (p : list name) (e : elem) (next epoch : nat) : elem * nat * nat * res nat :=
  match p with
  | [] => (e, next, epoch, Ok (e_uid e))
  | n :: p =>
      let down (ch : elem) (e : elem) (next epoch : nat) :=
        let '(ch, next, epoch, r) := walk building (pre ≫= child n) p ch next epoch in (put_child n ch e, next, epoch, r) in
      match child n e with
      | Some ch => down ch e next epoch
      | None =>
          match dict_get n (e_pending e) with
          | None => (e, next, epoch, Err KeyError)
          | Some c =>
              let e := set_pending (filter (fun x => x.1 <> n) (e_pending e)) e in
              let '(e, next, ex) := insert building pre n c e next in
              match ex with
              | Some x => (e, next, S epoch, Err x)
              | None => match child n e with Some ch => down ch e next (S epoch) | None => (e, next, S epoch, Err KeyError) end
              end
          end
      end
  end.

(** ** a root with its history *)
Record st := St { s_root : elem; s_old : option elem; s_next : nat; s_epoch : nat; s_building : nat }.
Definition is_building (s : st) : bool := negb (Nat.eqb (s_building s) 0).
(** 476-516 RootElement, 545-553 regenerate: the root of a constructor; [old] is inst_preincarnation *)
Definition start (c : ctor) (old : option elem) : st * option exn :=
  let '(e, next, ex) := construct c old 0 in (St e old next 0 0, ex).
(** root[s] *)
Definition getitem (x : name) (s : st) : st * res nat :=
  match child x (s_root s) with
  | Some c => (s, Ok (e_uid c))
  | None =>
      let '(e, next, epoch, r) := walk (is_building s) (s_old s) (split_dot x) (s_root s) (s_next s) (s_epoch s) in
      (St e (s_old s) next epoch (s_building s), r)
  end.
(** the element at a path of the tree, and its replacement *)
Fixpoint at_path (p : list name) (e : elem) : option elem :=
  match p with [] => Some e | n :: p => child n e ≫= at_path p end.
Fixpoint update_at (p : list name) (e' : elem) (e : elem) : elem :=
  match p with
  | [] => e'
  | n :: p => match child n e with Some c => put_child n (update_at p e' c) e | None => e end
  end.
(** el.insert(obj, n), or el.own.n = obj (570-576), of the element at [p] *)
Definition insert_at (p : list name) (n : name) (c : ctor) (s : st) : st * res nat :=
  match at_path p (s_root s) with
  | None => (s, Err KeyError)
  | Some e =>
      let '(e', next, ex) := insert (is_building s) (s_old s ≫= at_path p) n c e (s_next s) in
      (St (update_at p e' (s_root s)) (s_old s) next (S (s_epoch s)) (s_building s),
       match ex with Some x => Err x | None => match child n e' with Some ch => Ok (e_uid ch) | None => Err KeyError end end)
  end.
(** root._complete() *)
Definition complete_root (fuel : nat) (s : st) : st * option exn :=
  let '(e, next, epoch, ex) := complete fuel (is_building s) (s_old s) (s_root s) (s_next s) (s_epoch s) in
  (St e (s_old s) next epoch (s_building s), ex).
(** optics/ports.py 85-94 bond_inform *)
Definition bond_inform (p q : list name) (s : st) : st * option exn :=
  match at_path p (s_root s) with
  | None => (s, Some KeyError)
  | Some e =>
      let bb := if is_building s then e_bbonded e else false in
      match e_bond e with
      | Some _ => (St (update_at p (set_bonds (e_bond e) bb (e_ebonds e) e) (s_root s)) (s_old s) (s_next s) (s_epoch s) (s_building s), Some RuntimeError)
      | None => (St (update_at p (set_bonds (Some q) bb (e_ebonds e) e) (s_root s)) (s_old s) (s_next s) (s_epoch s) (s_building s), None)
      end
  end.
(** electronics/ports.py 65-71 bond_inform *)
Definition ebond_inform (p q : list name) (s : st) : st * option exn :=
  match at_path p (s_root s) with
  | None => (s, Some KeyError)
  | Some e => (St (update_at p (set_bonds (e_bond e) (e_bbonded e) (e_ebonds e ++ [(q, is_building s)]) e) (s_root s)) (s_old s) (s_next s) (s_epoch s) (s_building s), None)
  end.
(** 598-612 with root.building *)
Definition enter (s : st) : st := St (s_root s) (s_old s) (s_next s) (s_epoch s) (S (s_building s)).
Definition leave (s : st) : st := St (s_root s) (s_old s) (s_next s) (s_epoch s) (pred (s_building s)).
Inductive op :=
| Insert (p : list name) (n : name) (c : ctor) | GetItem (x : name) | CompleteRoot (fuel : nat)
| Bond (p q : list name) | EBond (p q : list name) | Enter | Leave.
Definition run1 (s : st) (o : op) : st :=
  match o with
  | Insert p n c => (insert_at p n c s).1
  | GetItem x => (getitem x s).1
  | CompleteRoot fuel => (complete_root fuel s).1
  | Bond p q => (bond_inform p q s).1
  | EBond p q => (ebond_inform p q s).1
  | Enter => enter s
  | Leave => leave s
  end.
(** a history of calls, whether or not they raise *)
Definition run (os : list op) (s : st) : st := foldl run1 s os.
