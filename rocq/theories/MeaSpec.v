(** What the measurements on a beam layout should give. *)
From stdpp Require Import base tactics list numbers.
From Coq Require Import Reals.
From Verif Require Import Fld Py Herm SigModel AlmModel AlmSpec MeaModel.
Local Open Scope R_scope.

(** all indices of refraction are positive *)
Fixpoint indices_pos (t : tree) : Prop :=
  match t with
  | Thin (LensInterface n_from n_to _) _ => 0 < n_from /\ 0 < n_to
  | Thin _ _ | Tgt => True
  | Sp _ n => 0 < n
  | Node l => foldr (fun c P => indices_pos c /\ P) True l
  end.
Definition usable (S : layout) : Prop :=
  (exists l, tree_of S = Node l) /\ tree_ok (tree_of S) /\ lengths_ok (tree_of S) /\ indices_pos (tree_of S) /\
  forall p, physical (beam_of S p).
(** a beam target *)
Definition beam_target (S : layout) (p : list nat) : Prop := leaf_at (tree_of S) p = Ok Tgt.
Definition known (S : layout) (s : nat) : Prop := exists p, beam_target S p /\ name_of S p = s.
(** places that mean one plane only: names, and distances at which no part without length stands *)
Definition plain (S : layout) (pt : point) : Prop :=
  match pt with AtName s => known S s | AtIdx x => target (tree_of S) x | AtZ z => ~ thin_at (flat (tree_of S)) z end.
Definition name_or_z (pt : point) : Prop := match pt with AtIdx _ => False | _ => True end.
(** the same beam but for a factor in the Gouy phasor *)
Definition same_beam (a b : beam) : Prop := value a = value b /\ wavelen a = wavelen b /\ same_phase (gouy a) (gouy b).

(** a space of the layout, and the stretch it fills *)
Definition space_at (S : layout) (e : list nat) (L n : R) : Prop := leaf_at (tree_of S) e = Ok (Sp L n).
Definition stretch (S : layout) (e : list nat) (a b : R) : Prop :=
  target_pos (tree_of S) (Tidx e TL) = Ok a /\ target_pos (tree_of S) (Tidx e TR) = Ok b.
(** the beam of the target [p], carried to the left end of the space [e] and from there through the
    medium of the space to [zw], has its waist there, of Rayleigh range [ZR] *)
Definition waist_at (S : layout) (p e : list nat) (zw ZR : R) : Prop :=
  exists L n a b, space_at S e L n /\ target_pos (tree_of S) (Tidx e TL) = Ok a /\
    target_q S (Tidx p TQ) (AtIdx (Tidx e TL)) = Ok b /\
    value (propagate_matrix b (M2 1 ((zw - a) / n) 0 1)) = (0, ZR).
(** the beam comes from a target next to the space: no other target lies between *)
Definition next_to (S : layout) (p e : list nat) : Prop :=
  exists x a b, target_pos (tree_of S) (Tidx p TQ) = Ok x /\ stretch S e a b /\
    forall s y z, target_idx S s = Ok y -> target_pos (tree_of S) y = Ok z -> ~ (x < z < a) /\ ~ (b < z < x).
(** any two named targets have matching beams *)
Definition matching (S : layout) : Prop :=
  forall s1 s2 p1 p2 b, target_idx S s1 = Ok (Tidx p1 TQ) -> target_idx S s2 = Ok (Tidx p2 TQ) ->
    target_q S (Tidx p1 TQ) (AtName s2) = Ok b -> value b = value (beam_of S p2) /\ wavelen b = wavelen (beam_of S p2).
