(** Model of the measurements on a beam layout: /repo/phasor/alm/measurements.py target_q,
    overlap, relative_gouy_phasor, target_idx, beam_targets, _z_q_descmap and waist_descriptions,
    with waist_description of /repo/phasor/alm/space.py.  The layout is the tree of AlmModel.v;
    each beam target has a name (a number) and a beam (beam_q of target.py, already computed), both
    given by its place in the tree.  No target is hidden.  The compound lenses of
    composites.py, which answer for their inside themselves and report no waist in it, are not
    modelled: every space of the tree is asked.  Numbers are real, without rounding.  Not
    modelled: the array versions, constraints, excursions, text. *)
From stdpp Require Import base tactics list numbers.
From Coq Require Import Reals.
From Verif Require Import Fld Py Herm SigModel AlmModel.
Local Open Scope R_scope.

Record layout := Layout { tree_of : tree; name_of : list nat -> nat; beam_of : list nat -> beam }.

(** system_data_targets: system.py 414-419 with 'q_target' (target.py 43-45) and with
    'waist_description' (space.py 141-144), in order *)
Fixpoint q_targets (t : tree) : list (list nat) :=
  match t with
  | Tgt => [[]]
  | Node l => (fix go (i : nat) (l : list tree) : list (list nat) :=
                 match l with [] => [] | c :: l => map (cons i) (q_targets c) ++ go (S i) l end) 0%nat l
  | _ => []
  end.
Fixpoint spaces (t : tree) : list (list nat * (R * R)) :=
  match t with
  | Sp L n => [([], (L, n))]
  | Node l => (fix go (i : nat) (l : list tree) : list (list nat * (R * R)) :=
                 match l with [] => [] | c :: l => map (fun x => (i :: fst x, snd x)) (spaces c) ++ go (S i) l end) 0%nat l
  | _ => []
  end.
(** 495-507 target_idx with a name: the last target of that name *)
Definition target_idx (S : layout) (s : nat) : res tidx :=
  match List.find (fun p => Nat.eqb (name_of S p) s) (rev (q_targets (tree_of S))) with
  | Some p => Ok (Tidx p TQ)
  | None => Err KeyError
  end.
(** system.py 379-382 target_obj, target.py 48-49; other parts have none *)
Fixpoint leaf_at (t : tree) (p : list nat) : res tree :=
  match p with
  | [] => Ok t
  | i :: p => match t with Node l => c ← lookup_err l i; leaf_at c p | _ => Err AttributeError end
  end.
Definition target_beam (S : layout) (x : tidx) : res beam :=
  c ← leaf_at (tree_of S) (path x); match c with Tgt => Ok (beam_of S (path x)) | _ => Err AttributeError end.

(** where to look: at a target of a name, at any other TargetIdx, at a distance *)
Inductive point := AtName (s : nat) | AtIdx (x : tidx) | AtZ (z : R).
(** 244-275 target_q; the source is found before *)
Definition matrix_to (S : layout) (x : tidx) (pt : point) : res arr :=
  match pt with
  | AtName s => y ← target_idx S s; between (tree_of S) x y
  | AtIdx y => between (tree_of S) x y
  | AtZ z => to_z (tree_of S) x z
  end.
Definition target_q (S : layout) (x : tidx) (pt : point) : res beam :=
  m ← matrix_to S x pt; b ← target_beam S x; Ok (propagate_matrix b (val m)).
(** 229-242 overlap of two names *)
Definition overlap_of (S : layout) (s1 s2 : nat) : res C_fld :=
  x1 ← target_idx S s1; x2 ← target_idx S s2; m ← between (tree_of S) x1 x2;
  q1 ← target_beam S x1; q2 ← target_beam S x2;
  Ok (overlap q2 (propagate_matrix q1 (val m))).
(** x / abs(x) *)
Definition cunit (x : C_fld) : C_fld := (x / cre (R_sqrt.sqrt (C_sq x)))%F.
(** 277-320 relative_gouy_phasor; the points are names or distances *)
Definition relative_gouy (S : layout) (src : nat) (p1 p2 : point) : res C_fld :=
  x ← target_idx S src;
  matbs ← matrix_to S x p1;
  q ← target_beam S x;
  let q_1 := propagate_matrix q (val matbs) in
  let q_1 := Beam (value q_1) (wavelen q_1) 1%F in
  mat ← match p2, p1 with
        | AtName s2, AtName s1 => x2 ← target_idx S s2; x1 ← target_idx S s1; between (tree_of S) x1 x2
        | AtName s2, AtZ z1 => x2 ← target_idx S s2; m ← to_z (tree_of S) x2 z1; apow_inv m
        | AtZ z2, AtName s1 => x1 ← target_idx S s1; to_z (tree_of S) x1 z2
        | AtZ z2, AtZ _ => m ← to_z (tree_of S) x z2; i ← apow_inv matbs; Ok (amul m i)
        | _, _ => Err TypeError
        end;
  Ok (cunit (gouy (propagate_matrix q_1 (val mat)))).

(** * Waists.  space.py 116-133; [eps] is the 1e-16 of the code *)
Definition waist_description (eps L n z : R) (q : beam) (left : bool) : option (R * R) :=
  let qZ := b_Z q * n in
  let zw := z - qZ in
  let y := if left then - qZ else qZ in
  if Rlt_dec (- eps) y then if Rlt_dec y L then Some (zw, b_ZR q) else None else None.
(** 357-380 _z_q_descmap for the spaces.  The tuples are compared from the outermost index; a beam
    target is no system, so no comparison reaches its 'q_target' *)
Fixpoint lexle (p p' : list nat) : bool :=
  match p, p' with
  | [], _ => true
  | _ :: _, [] => false
  | i :: p, j :: p' => if decide (i < j)%nat then true else if decide (j < i)%nat then false else lexle p p'
  end.
Definition descmap1 (S : layout) (x : tidx) (e : list nat * (R * R)) : res (R * beam * bool * (list nat * (R * R))) :=
  let left := lexle (path x) (fst e) in
  let target := Tidx (fst e) (if left then TL else TR) in
  z ← target_pos (tree_of S) target; q ← target_q S x (AtIdx target); Ok (z, q, left, e).
Fixpoint descmap (S : layout) (x : tidx) (es : list (list nat * (R * R))) : res (list (R * beam * bool * (list nat * (R * R)))) :=
  match es with
  | [] => Ok []
  | e :: es => d ← descmap1 S x e; ds ← descmap S x es; Ok (d :: ds)
  end.
(** 341-355 beam_targets: (z, name), sorted.  A dictionary has each name once, in the place where it came first *)
Fixpoint unique (l : list nat) : list nat :=
  match l with [] => [] | s :: l => s :: List.filter (fun s' => negb (Nat.eqb s' s)) (unique l) end.
Definition before (a b : R * nat) : bool :=
  if Rlt_dec (fst a) (fst b) then true else if Rlt_dec (fst b) (fst a) then false else Nat.leb (snd a) (snd b).
Fixpoint insert (a : R * nat) (l : list (R * nat)) : list (R * nat) :=
  match l with [] => [a] | b :: l => if before a b then a :: b :: l else b :: insert a l end.
Fixpoint sort (l : list (R * nat)) : list (R * nat) := match l with [] => [] | a :: l => insert a (sort l) end.
Fixpoint target_zs (S : layout) (ss : list nat) : res (list (R * nat)) :=
  match ss with
  | [] => Ok []
  | s :: ss => x ← target_idx S s; z ← target_pos (tree_of S) x; l ← target_zs S ss; Ok ((z, s) :: l)
  end.
Definition beam_targets (S : layout) : res (list (R * nat)) :=
  l ← target_zs S (unique (map (name_of S) (q_targets (tree_of S)))); Ok (sort l).
(** 420-442 waist_descriptions: of each target what lies behind it, up to the next; of the first
    also what lies before it *)
Definition in_range (first : bool) (z1 : R) (z2 : option R) (z : R) : bool :=
  (first || (if Rlt_dec z1 z then true else false)) &&
  match z2 with Some z2 => if Rle_dec z z2 then true else false | None => true end.
Fixpoint waist_data (S : layout) (first : bool) (ts : list (R * nat)) : res (list (R * beam * bool * (list nat * (R * R)))) :=
  match ts with
  | [] => Ok []
  | (z1, s) :: ts =>
      x ← target_idx S s;
      ds ← descmap S x (spaces (tree_of S));
      rest ← waist_data S false ts;
      Ok (List.filter (fun d => in_range first z1 (fst <$> head ts) (fst (fst (fst d)))) ds ++ rest)
  end.
Definition waist_of (eps : R) (d : R * beam * bool * (list nat * (R * R))) : option (R * R) :=
  let '(z, q, lft, (_, (L, n))) := d in waist_description eps L n z q lft.
Definition waist_descriptions (S : layout) (eps : R) : res (list (R * R)) :=
  ts ← beam_targets S;
  ds ← waist_data S true ts;
  Ok (omap (waist_of eps) (ds : list (R * beam * bool * (list nat * (R * R))))).
(** 123-125 z_nearest_waist with 166-189 q_target_z of one distance *)
Definition z_nearest (S : layout) (x : tidx) (z scale : R) : res R :=
  q ← target_q S x (AtZ z); Ok (z - b_Z q + scale * b_ZR q).
