(** What the beam tools should do. *)
From stdpp Require Import base tactics list numbers.
From Coq Require Import Reals.
From Verif Require Import Fld Py Herm SigModel AlmModel.
Local Open Scope R_scope.

Definition I2 : m2 := M2 1 0 0 1.
(** a ray (offset, slope) and what a matrix does to it *)
Definition ray (m : m2) (r : R * R) : R * R := (m00 m * r.1 + m01 m * r.2, m10 m * r.1 + m11 m * r.2).
(** the same ray travelling back *)
Definition back (r : R * R) : R * R := (r.1, - r.2).

(** parts whose parameters are usable *)
Definition part_ok (p : part) : Prop :=
  match p with
  | NoP => True
  | ThinLens f => f <> 0
  | LensInterface n_from n_to R_m => n_from <> 0 /\ n_to <> 0 /\ R_m <> Some 0
  | Mirror R_m => R_m <> Some 0
  | ABCDGeneric A _ _ => A <> 0
  end.
(** ... in every system with at least one component *)
Fixpoint tree_ok (t : tree) : Prop :=
  match t with
  | Thin p _ => part_ok p
  | Sp _ n => n <> 0
  | Tgt => True
  | Node l => l <> [] /\ foldr (fun c P => tree_ok c /\ P) True l
  end.
Fixpoint comp_ok (c : comp) : Prop :=
  match c with
  | CPart _ p => part_ok p
  | CSpace _ n => n <> 0
  | CTarget => True
  | CStack _ l => l <> [] /\ foldr (fun c P => comp_ok c /\ P) True l
  | CPlaced _ l => l <> [] /\ foldr (fun c P => comp_ok (snd c) /\ P) True l
  end.
(** no ABCDGeneric *)
Fixpoint no_generic (c : comp) : Prop :=
  match c with
  | CPart _ (ABCDGeneric _ _ _) => False
  | CPart _ _ | CSpace _ _ | CTarget => True
  | CStack _ l => foldr (fun c P => no_generic c /\ P) True l
  | CPlaced _ l => foldr (fun c P => no_generic (snd c) /\ P) True l
  end.
(** the targets there are *)
Fixpoint valid (t : tree) (p : list nat) (a : leaf) : Prop :=
  match p with
  | [] => match t with Tgt => True | _ => a <> TQ end
  | i :: p => match t with Node l => match l !! i with Some c => valid c p a | None => False end | _ => False end
  end.
Definition target (t : tree) (x : tidx) : Prop := valid t (path x) (at_ x).
Definition left_ := Tidx [] TL.
Definition right_ := Tidx [] TR.

(** the index of refraction behind a component, before it being [n], and at a target *)
Fixpoint behind (t : tree) (n : R) : R :=
  match t with
  | Thin (LensInterface n_from n_to _) env => if env then n_from else n_to
  | Thin _ _ | Sp _ _ | Tgt => n
  | Node l => foldl (fun n c => behind c n) n l
  end.
Fixpoint index (t : tree) (n : R) (p : list nat) (a : leaf) : R :=
  match p with
  | [] => match a with TR => behind t n | _ => n end
  | i :: p =>
      match t with
      | Node l => match l !! i with
                  | Some c => index c (foldl (fun n c => behind c n) n (take i l)) p a
                  | None => n
                  end
      | _ => n
      end
  end.
(** every component is made for the index in front of it *)
Fixpoint matched (t : tree) (n : R) : Prop :=
  match t with
  | Thin (LensInterface n_from n_to _) env => n = if env then n_to else n_from
  | Sp _ n' => n' = n
  | Thin _ _ | Tgt => True
  | Node l => (fix go l n := match l with [] => True | c :: l => matched c n /\ go l (behind c n) end) l n
  end.

(** the parts of a system in order, without the tree *)
Fixpoint flat (t : tree) : list tree :=
  match t with Node l => foldr (fun c v => flat c ++ v) [] l | _ => [t] end.
(** the matrix up to [z]: through everything that ends at or before z, then part of a space *)
Fixpoint walk (l : list tree) (z : R) : m2 :=
  match l with
  | [] => M2 1 z 0 1
  | Sp L n :: l => if Rlt_dec z L then M2 1 (z / n) 0 1 else mmul (walk l (z - L)) (M2 1 (L / n) 0 1)
  | c :: l => mmul (walk l z) (val (matrix c))
  end.
(** [m] takes a ray from the left end to a plane at [z]; where parts without length sit at z there
    is a plane in front of each and behind the last *)
Inductive plane : list tree -> R -> m2 -> Prop :=
  | plane_here l : plane l 0 I2
  | plane_in L n l z : 0 <= z <= L -> plane (Sp L n :: l) z (M2 1 (z / n) 0 1)
  | plane_space L n l z m : plane l z m -> plane (Sp L n :: l) (L + z) (mmul m (M2 1 (L / n) 0 1))
  | plane_thin c l z m : (forall L n, c <> Sp L n) -> plane l z m -> plane (c :: l) z (mmul m (val (matrix c)))
  | plane_after z : 0 <= z -> plane [] z (M2 1 z 0 1).
(** a part without length sits at [z] *)
Fixpoint thin_at (l : list tree) (z : R) : Prop :=
  match l with
  | [] => False
  | Sp L _ :: l => thin_at l (z - L)
  | _ :: l => z = 0 \/ thin_at l z
  end.
Fixpoint lengths_ok (t : tree) : Prop :=
  match t with Sp L _ => 0 <= L | Thin _ _ | Tgt => True | Node l => foldr (fun c P => lengths_ok c /\ P) True l end.

(** beams: positive Rayleigh range and wavelength *)
Definition physical (b : beam) : Prop := 0 < b_ZR b /\ 0 < wavelen b.
(** one positive multiple of another *)
Definition same_phase (x y : C_fld) : Prop := exists k, 0 < k /\ x = (cre k * y)%F.
(** squared magnitude *)
Definition mag2 (x : C_fld) : R := C_sq x.
