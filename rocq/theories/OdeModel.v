(** Model of /repo/phasor/optics/ODE_solver.py 36-450: list-tuple expressions (sums of products)
    and the coupling ExpMatCoupling that integrates an ODE with polynomial right-hand sides and
    couples its solution into the linear system. One sample of the NumPy values at a time.
    The class that follows in the file (from 452 on) is commented out. *)
From Coq Require Import Reals.
From stdpp Require Import base tactics list numbers gmap.
From Verif Require Import Py Fld Herm SigModel.

(** a tuple: a gain and keys, multiplied *)
Notation mono K X := (fcar K * list X)%type.
Section lt.
  Context {K : fld} {X : Type}.
  Local Open Scope fld_scope.
  (** a tuple, or a list: a sum *)
  Inductive ltup := Tup (t : mono K X) | Lst (l : list ltup).
  (** 37-46: lt_mult_inner; a sum over a list is the concatenation of the results *)
  Fixpoint lt_mult_inner (t : mono K X) (b : ltup) : list (mono K X) :=
    match b with
    | Lst l => concat (map (lt_mult_inner t) l)
    | Tup u => [(u.1 * t.1, t.2 ++ u.2)]
    end.
  (** 36, 47-56: lt_mult *)
  Fixpoint lt_mult (a b : ltup) : list (mono K X) :=
    match a with
    | Lst l => concat (map (fun a => lt_mult a b) l)
    | Tup t => lt_mult_inner t b
    end.
End lt.
Arguments ltup : clear implicits.

(** Python's order of tuples of integers *)
Fixpoint tup_le (a b : list nat) : bool :=
  match a, b with
  | [], _ => true
  | _, [] => false
  | x :: a, y :: b => if decide (x < y)%nat then true else if decide (x = y) then tup_le a b else false
  end.
(** of pairs (tuple, index) *)
Definition pair_le (a b : list nat * nat) : bool :=
  if decide (a.1 = b.1) then bool_decide (a.2 <= b.2)%nat else tup_le a.1 b.1.
(** sorted *)
Fixpoint ins_sorted {A} (le : A -> A -> bool) (x : A) (l : list A) : list A :=
  match l with [] => [x] | y :: l' => if le x y then x :: l else y :: ins_sorted le x l' end.
Definition py_sorted {A} (le : A -> A -> bool) (l : list A) : list A := foldr (ins_sorted le) [] l.

(** a dict filled in this order: later entries overwrite earlier ones *)
Definition dict_of {A B} `{Countable A} (l : list (A * B)) : gmap A B := list_to_map (reverse l).

Section ode.
  Context {K : fld}.
  Local Open Scope fld_scope.
  Notation imono := (mono K nat).

  (** 68-80: merge runs of equal keys, adding gains in order; [gain idx] is new_list[idx][0] *)
  Fixpoint collect_from (gain : nat -> K) (prev_NL : list nat) (prev_gain : K) (l : list (list nat * nat)) : list imono :=
    match l with
    | [] => [(prev_gain, prev_NL)]
    | (NL, idx) :: l =>
        if decide (prev_NL = NL) then collect_from gain prev_NL (prev_gain + gain idx) l
        else (prev_gain, prev_NL) :: collect_from gain NL (gain idx) l
    end.
  (** 59-81: lt_sort_collect *)
  Definition lt_sort_collect (new_list : list imono) : list imono :=
    let gain idx := match new_list !! idx with Some L => L.1 | None => 0 end in
    match py_sorted pair_le (imap (fun idx L => (py_sorted Nat.leb L.2, idx)) new_list) with
    | [] => []
    | (NL, idx) :: l => collect_from gain NL (gain idx) l
    end.

  (** defaultdict(lambda : 0)[k] += v, over a list of such updates *)
  Definition dd_get (m : gmap nat K) (k : nat) : K := default 0 (m !! k).
  Definition dd_add (m : gmap nat K) (u : nat * K) : gmap nat K := <[u.1 := dd_get m u.1 + u.2]> m.
  Definition nonzero (l : list (nat * K)) : list (nat * K) := filter (fun u => u.2 <> 0) l.

  (** entries of pkv: the integer 0 set at 239-240 (which 347 tests with [is]), or a value *)
  Inductive pyv := Int0 | Val (x : K).
  Definition pv (p : pyv) : K := match p with Int0 => 0 | Val x => x end.
  Definition upd {A} (f : nat -> A) (i : nat) (a : A) : nat -> A := fun j => if decide (j = i) then a else f j.

  (** 257-266: lt_val *)
  Definition mono_val (pkv : nat -> pyv) (t : imono) : K := foldl (fun gain i => gain * pv (pkv i)) t.1 t.2.
  Definition lt_val (pkv : nat -> pyv) (lt : list imono) : K := foldl (fun val t => val + mono_val pkv t) 0 lt.
  (** 268-277: lt_val_matrix_d; lt_M_d as the list of its entries (the dict only groups them) *)
  Definition lt_val_matrix_d (pkv : nat -> pyv) (lt_M_d : list (nat * imono)) : gmap nat K :=
    foldl (fun vec_d e => dd_add vec_d (e.1, mono_val pkv e.2)) ∅ lt_M_d.
  (** each key of a product with the other keys: 287-294 *)
  Fixpoint others (pre ks : list nat) : list (nat * list nat) :=
    match ks with [] => [] | k :: ks => (k, pre ++ ks) :: others (pre ++ [k]) ks end.
  (** 279-303: lt_val_matrix_d_generate: entries with another key outside the set are dropped *)
  Definition lt_val_matrix_d_generate (nz : gset nat) (lt : list imono) : list (nat * imono) :=
    t ← lt; e ← others [] t.2;
    if decide (Forall (.∈ nz) e.2) then [(e.1, (t.1, e.2))] else [].
  (** 305-321: lt_reduced_generate *)
  Definition lt_reduced_generate (nz : gset nat) (lt : list imono) : list imono :=
    filter (fun t => Forall (.∈ nz) t.2) lt.

  (** the variables of generate_solution during its loops. dMexp_s1 is a defaultdict of
      defaultdicts: reading a row that is not there makes an empty one, which has no effect *)
  Record ode_st := OdeSt {
    o_pkv : nat -> pyv;
    o_nz : gset nat;
    o_lts : list (list imono);
    o_ltMs : list (list (nat * imono));
    o_M : nat -> gmap nat K;
  }.
  (** 333-336, 351-353 *)
  Definition o_regen (base : list (nat * list imono)) (nz : gset nat) : list (list imono) * list (list (nat * imono)) :=
    ((fun T => lt_reduced_generate nz T.2) <$> base, (fun T => lt_val_matrix_d_generate nz T.2) <$> base).
  (** 340-386: one turn of the while loop, at position [n] of the lists *)
  Definition ode_visit (base : list (nat * list imono)) (s : ode_st) (n : nat) : ode_st :=
    match base !! n, o_lts s !! n, o_ltMs s !! n with
    | Some (idx_pk, _), Some lt, Some lt_M_d =>
        let dPK := lt_val (o_pkv s) lt in
        let vec_d := lt_val_matrix_d (o_pkv s) lt_M_d in
        let '(nz, lts, ltMs) :=
          match o_pkv s idx_pk with
          | Int0 => if decide (dPK = 0) then (o_nz s, o_lts s, o_ltMs s)
                    else let nz := {[idx_pk]} ∪ o_nz s in (nz, (o_regen base nz).1, (o_regen base nz).2)
          | Val _ => (o_nz s, o_lts s, o_ltMs s)
          end in
        let pkv := if decide (dPK = 0) then o_pkv s else upd (o_pkv s) idx_pk (Val (pv (o_pkv s idx_pk) + dPK)) in
        (* 359-370 *)
        let update := foldl dd_add (∅ : gmap nat K)
          (ov ← map_to_list vec_d; ie ← nonzero (map_to_list (o_M s ov.1)); [(ie.1, ie.2 * ov.2)]) in
        (* 375-382 *)
        let row := foldl dd_add (foldl dd_add (o_M s idx_pk) (nonzero (map_to_list update)))
                     (nonzero (map_to_list vec_d)) in
        OdeSt pkv nz lts ltMs (upd (o_M s) idx_pk row)
    | _, _, _ => s
    end.
  (** 337-386: N_ode sweeps *)
  Definition ode_run (base : list (nat * list imono)) (N : nat) (s : ode_st) : ode_st :=
    foldl (ode_visit base) s (concat (replicate N (seq 0 (length base)))).
  (** 323-336 *)
  Definition ode_init (base : list (nat * list imono)) (n : nat) (pkv : nat -> pyv) : ode_st :=
    let nz := list_to_set (filter (fun i => pv (pkv i) <> 0) (seq 0 n)) in
    OdeSt pkv nz (o_regen base nz).1 (o_regen base nz).2 (fun _ => ∅).

  Section coupling.
    Context {P PK : Type} `{Countable P} `{Countable PK}.
    (** dLt; in_map; out_map, whose values may be None *)
    Record ode_spec := OdeSpec {
      od_dLt : gmap P (list (mono K P));
      od_in : gmap P PK;
      od_out : gmap P (option PK);
      od_N : nat;
      (** 165-178: self.pks, the keys of dLt and of its expressions, sorted somehow; an argument here *)
      od_pks : list P;
    }.
    (** 145-162: the keys that self.pks lists *)
    Definition pks_grab (dLt : gmap P (list (mono K P))) : gset P :=
      list_to_set (e ← map_to_list dLt; e.1 :: (t ← e.2; t.2)).
    Context (c : ode_spec).
    Fixpoint ofnat' (n : nat) : K := match n with 0%nat => 0 | S n => 1 + ofnat' n end.
    (** 179-181: pks_inv; every key is there *)
    Definition pks_inv (pk : P) : nat := match list_find (.= pk) (od_pks c) with Some (i, _) => i | None => 0 end.
    (** 183-201: lt_remap on a sum of products; h = 1 / N_ode *)
    Definition lt_remap (lt : list (mono K P)) : list imono :=
      (fun t : mono K P => (t.1 * (1 / ofnat' (od_N c)), map pks_inv t.2)) <$> lt.
    (** 202-204, 333: dLt_base, in the order of the indices *)
    Definition dLt_base : list (nat * list imono) :=
      omap (fun pk => lt ← od_dLt c !! pk; Some (pks_inv pk, lt_sort_collect (lt_remap lt))) (od_pks c).

    (** the state of the object *)
    Record ode_obj := OdeObj {
      b_solution : gmap (PK * PK) K;
      b_prev : gmap PK K;
      b_inj : gmap PK K;
    }.
    (** 113-120: pass-through at first *)
    Definition obj_init : ode_obj :=
      OdeObj (dict_of (omap (fun e => pk_out ← od_out c !! e.1; o ← pk_out; Some ((e.2, o), 1)) (map_to_list (od_in c)))) ∅ ∅.

    (** np.any(abs(tot_val) > 1e-8 * abs(sol_val)), of sol_val and prev_val *)
    Context (moved : K -> K -> bool).
    (** 234-243 *)
    Definition sol_get (m : gmap PK K) (k : PK) : K := default 0 (m !! k).
    Definition to_pyv (x : K) : pyv := if decide (x = 0) then Int0 else Val x.
    (** the final dMexp_s1 of row idx, with the 1 added on the diagonal: 419-424 *)
    Definition add_one (M : nat -> gmap nat K) (idx : nat) : gmap nat K := <[idx := dd_get (M idx) idx + 1]> (M idx).
    (** 225-450: generate_solution *)
    Definition generate_solution (o : ode_obj) (sol_vector : gmap PK K) : res ode_obj :=
      let n := length (od_pks c) in
      (* 230-231: self.in_map[pk] of every key *)
      match mapM (fun pk => od_in c !! pk) (od_pks c) with
      | None => Err KeyError
      | Some pk_ins =>
        if forallb (fun pk_in => negb (moved (sol_get sol_vector pk_in) (sol_get (b_prev o) pk_in))) pk_ins
        then Ok o
        else
          let pkv i := match pk_ins !! i with Some pk_in => to_pyv (sol_get sol_vector pk_in) | None => Int0 end in
          let s := ode_run dLt_base (od_N c) (ode_init dLt_base n pkv) in
          let prev : gmap PK K := dict_of (i ← seq 0 n; match pk_ins !! i with
            | Some pk_in => if decide (pv (pkv i) = 0) then [] else [(pk_in, pv (pkv i))] | None => [] end) in
          (* 432-433, 445: self.out_map[pk] of every key *)
          match mapM (fun pk => od_out c !! pk) (od_pks c) with
          | None => Err KeyError
          | Some pk_outs =>
            let M := add_one (o_M s) in
            let solution : gmap (PK * PK) K := dict_of (
              io ← seq 0 n; ie ← map_to_list (M io);
              match pk_ins !! ie.1, pk_outs !! io with Some pkin, Some (Some pkout) => [((pkin, pkout), ie.2)] | _, _ => [] end) in
            let dval_out io := fsum (fun ie => ie.2 * pv (pkv ie.1)) (map_to_list (M io)) in
            let inj : gmap PK K := dict_of (
              io ← seq 0 n; match pk_outs !! io with Some (Some pkout) => [(pkout, pv (o_pkv s io) - dval_out io)] | _ => [] end) in
            Ok (OdeObj solution prev inj)
          end
      end.
    (** 209-223: update_solution, edge_mat_func, source_func_out; the test of 210 only skips a
        call that would return at once *)
    Definition ode_updates (vs : list (gmap PK K)) : res ode_obj := mfor generate_solution vs obj_init.
  End coupling.
End ode.

(** 242: abs(sol - prev) > 1e-8 * abs(sol), squared *)
Definition norm2 (x : C_fld) : R := (x.1 * x.1 + x.2 * x.2)%R.
Definition c_moved (sol prev : C_fld) : bool :=
  if Rlt_dec (/ 10 ^ 16 * norm2 sol) (norm2 (sol - prev)%F) then true else false.
