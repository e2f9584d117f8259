(** Model of the Gaussian beam tools in /repo/phasor/alm: ray matrices of the parts (bases.py,
    space.py, utils.py), their composition in systems (system.py), and beam parameters
    (beam_param.py).  Numbers are real (complex) without rounding.

    A system's component list is computed by component_pos_pairings; [build] is that
    computation, and the tree it gives is what the matrix methods walk over.  Not modelled here:
    the truncation boundaries (CutModel.v), the memo tables and their invalidation, the array versions of
    the *_to_z methods, fitting and plotting. *)
From stdpp Require Import base tactics list numbers.
From Coq Require Import Reals.
From Verif Require Import Fld Py Herm SigModel.
Local Open Scope R_scope.

(** * Two by two matrices.  np.matrix and np.ndarray differ in * and **: the first multiplies
    matrices, the second entry by entry; a product of the two kinds is a matrix product *)
Record m2 := M2 { m00 : R; m01 : R; m10 : R; m11 : R }.
Definition mmul (x y : m2) : m2 :=
  M2 (m00 x * m00 y + m01 x * m10 y) (m00 x * m01 y + m01 x * m11 y)
     (m10 x * m00 y + m11 x * m10 y) (m10 x * m01 y + m11 x * m11 y).
Definition det (x : m2) : R := m00 x * m11 x - m01 x * m10 x.
Definition minv (x : m2) : m2 := M2 (m11 x / det x) (- m01 x / det x) (- m10 x / det x) (m00 x / det x).
Inductive arr := Mat (m : m2) | Nd (m : m2).
Definition val (a : arr) : m2 := match a with Mat m | Nd m => m end.
Definition amul (a b : arr) : arr :=
  match a, b with
  | Nd x, Nd y => Nd (M2 (m00 x * m00 y) (m01 x * m01 y) (m10 x * m10 y) (m11 x * m11 y))
  | _, _ => Mat (mmul (val a) (val b))
  end.
(** a**(-1).  Entries 1/0 of an ndarray are inf, with a warning: here an error *)
Definition apow_inv (a : arr) : res arr :=
  match a with
  | Mat m => if Req_EM_T (det m) 0 then Err ValueError (* LinAlgError *) else Ok (Mat (minv m))
  | Nd m => if Req_EM_T (m00 m * m01 m * m10 m * m11 m) 0 then Err ZeroDivisionError else
            Ok (Nd (M2 (/ m00 m) (/ m01 m) (/ m10 m) (/ m11 m)))
  end.
(** np.eye(2), an ndarray *)
Definition eye : arr := Nd (M2 1 0 0 1).

(** utils.py 37-64 matrix_space, matrix_focus, matrix_telescope *)
Definition matrix_space (L : R) : arr := Mat (M2 1 L 0 1).
Definition matrix_focus (f : option R) (dL : R) : arr :=
  let mat := match f with None => Mat (M2 1 0 0 1) | Some f => Mat (M2 1 0 (-1 / f) 1) end in
  if Req_EM_T dL 0 then mat else amul (amul (matrix_space dL) mat) (matrix_space (- dL)).
Definition matrix_telescope (L1 R dL : R) : arr :=
  let L2 := R * L1 in
  amul (amul (matrix_focus (Some (- L2)) 0) (matrix_space (L1 - L2 - dL))) (matrix_focus (Some L1) 0).

(** * Parts without length: bases.py NoP 198-205, ThinLens 208-220, LensInterface 250-310,
    Mirror 313-328, ABCDGeneric 369-407 (D = (C B + 1)/A); the indices of refraction are given *)
Inductive part :=
  | NoP
  | ThinLens (f : R)
  | LensInterface (n_from n_to : R) (R_m : option R)
  | Mirror (R_m : option R)
  | ABCDGeneric (A B C : R).
Definition interface (env : bool) (n_from n_to : R) (R_m : option R) : arr :=
  match R_m with
  | Some R_m =>
      if env then Mat (M2 1 0 ((n_to / n_from - 1) / - R_m) (n_to / n_from))
      else Mat (M2 1 0 ((n_from / n_to - 1) / R_m) (n_from / n_to))
  | None => if env then Mat (M2 1 0 0 (n_to / n_from)) else Mat (M2 1 0 0 (n_from / n_to))
  end.
Definition part_matrix (p : part) (env : bool) : arr :=
  match p with
  | NoP => Mat (M2 1 0 0 1)
  | ThinLens f => matrix_focus (Some f) 0
  | LensInterface n_from n_to R_m => interface env n_from n_to R_m
  | Mirror (Some R_m) => Mat (M2 1 0 (-2 / R_m) 1)
  | Mirror None => Mat (M2 1 0 0 1)
  | ABCDGeneric A B C => Mat (M2 A B C ((C * B + 1) / A))
  end.
(** matrix_inv: 203-205, 217-220, 284-310; the others inherit 72-77 of MatrixAtsBase *)
Definition part_matrix_inv (p : part) (env : bool) : res arr :=
  match p with
  | NoP => Ok (Mat (M2 1 0 0 1))
  | ThinLens f => Ok (matrix_focus (Some (- f)) 0)
  | LensInterface n_from n_to R_m => Ok (interface env n_to n_from R_m)
  | _ => apow_inv (part_matrix p env)
  end.

(** * What a system holds after component_pos_pairings *)
Inductive tree :=
  | Thin (p : part) (env : bool)
  | Sp (L n : R)
  | Tgt
  | Node (filled : list tree).
(** width_m: bases.py 155, space.py 37-39, system.py 55-58 (the last position less the first) *)
Fixpoint width (t : tree) : R :=
  match t with Thin _ _ | Tgt => 0 | Sp L _ => L | Node l => foldr (fun c v => width c + v) 0 l end.
(** matrix and matrix_inv of the components: space.py 41-56, system.py 237-260; a target
    (target.py BeamTargetBase) is a NoP *)
Fixpoint matrix (t : tree) : arr :=
  match t with
  | Thin p env => part_matrix p env
  | Sp L n => Mat (M2 1 (L / n) 0 1)
  | Tgt => Mat (M2 1 0 0 1)
  | Node l => foldl (fun mat c => amul (matrix c) mat) eye l
  end.
Fixpoint matrix_inv (t : tree) : res arr :=
  match t with
  | Thin p env => part_matrix_inv p env
  | Sp L n => Ok (Mat (M2 1 (- L / n) 0 1))
  | Tgt => Ok (Mat (M2 1 0 0 1))
  | Node l => foldr (fun c r => mat ← r; i ← matrix_inv c; Ok (amul i mat)) (Ok eye) l
  end.

(** * Targets: a tuple of 'left', 'right' or 'q_target' followed by indices, innermost first;
    here the indices come outermost first.  Indices are not negative. *)
Inductive leaf := TL | TR | TQ.
Record tidx := Tidx { path : list nat; at_ : leaf }.
Definition lookup_err (l : list tree) (i : nat) : res tree :=
  match l !! i with Some c => Ok c | None => Err IndexError end.
Definition mats (l : list tree) (mat : arr) : arr := foldl (fun mat c => amul (matrix c) mat) mat l.
Definition mats_inv (l : list tree) (mat : arr) : res arr :=
  foldr (fun c r => mat ← r; i ← matrix_inv c; Ok (amul i mat)) (Ok mat) l.
(** the slice l[i:j] *)
Definition slice (l : list tree) (i j : nat) : list tree := take (j - i) (drop i l).
(** bases.py 79-96, target.py 54-69, system.py 266-322 matrix_between; [fuel] bounds the
    number of nested calls *)
Fixpoint between_f (fuel : nat) (t : tree) (t1 t2 : tidx) : res arr :=
  match fuel with
  | O => Err OutOfFuel
  | S fuel =>
      match t with
      | Thin _ _ | Sp _ _ =>
          match path t1, at_ t1, path t2, at_ t2 with
          | [], TL, [], TL => Ok eye
          | [], TL, [], TR => Ok (matrix t)
          | [], TR, [], TL => matrix_inv t
          | [], TR, [], TR => Ok eye
          | _, _, _, _ => Err RuntimeError
          end
      | Tgt => match path t1, path t2 with [], [] => Ok eye | _, _ => Err RuntimeError end
      | Node l =>
          match path t1, at_ t1, path t2, at_ t2 with
          | [], TL, [], TL => Ok eye
          | [], TL, [], TR => Ok (matrix t)
          | [], TR, [], TL => apow_inv (matrix t)
          | [], TR, [], TR => Ok eye
          | [], TL, o2 :: p2, a2 =>
              let mat := mats (take o2 l) eye in
              c ← lookup_err l o2; m ← between_f fuel c (Tidx [] TL) (Tidx p2 a2); Ok (amul m mat)
          | [], TR, o2 :: p2, a2 =>
              mat ← mats_inv (drop (o2 + 1) l) eye;
              c ← lookup_err l o2; m ← between_f fuel c (Tidx [] TR) (Tidx p2 a2); Ok (amul m mat)
          | o1 :: p1, a1, [], TR =>
              c ← lookup_err l o1; mat ← between_f fuel c (Tidx p1 a1) (Tidx [] TR);
              Ok (mats (drop (o1 + 1) l) mat)
          | o1 :: p1, a1, [], TL =>
              c ← lookup_err l o1; mat ← between_f fuel c (Tidx p1 a1) (Tidx [] TL);
              mats_inv (take o1 l) mat
          | o1 :: p1, a1, o2 :: p2, a2 =>
              if decide (o2 = o1) then c ← lookup_err l o1; between_f fuel c (Tidx p1 a1) (Tidx p2 a2)
              else if decide (o1 < o2)%nat then
                c1 ← lookup_err l o1; mat ← between_f fuel c1 (Tidx p1 a1) (Tidx [] TR);
                let mat := mats (slice l (o1 + 1) o2) mat in
                c2 ← lookup_err l o2; m ← between_f fuel c2 (Tidx [] TL) (Tidx p2 a2); Ok (amul m mat)
              else
                c1 ← lookup_err l o1; mat ← between_f fuel c1 (Tidx p1 a1) (Tidx [] TL);
                mat ← mats_inv (slice l (o2 + 1) o1) mat;
                c2 ← lookup_err l o2; m ← between_f fuel c2 (Tidx [] TR) (Tidx p2 a2); Ok (amul m mat)
          | _, _, _, _ => Err TypeError
          end
      end
  end.
Definition between (t : tree) (t1 t2 : tidx) : res arr :=
  between_f (S (length (path t1) + length (path t2))) t t1 t2.

(** * Positions.  positions_list: the running sum of the widths, from zero *)
Fixpoint positions (x : R) (l : list tree) : list R :=
  match l with [] => [x] | c :: l => x :: positions (x + width c) l end.
(** np.searchsorted on a sorted list *)
Definition sorted_right (ps : list R) (z : R) : nat := length (List.filter (fun p => if Rle_dec p z then true else false) ps).
Definition sorted_left (ps : list R) (z : R) : nat := length (List.filter (fun p => if Rlt_dec p z then true else false) ps).
(** space.py 57-77, bases.py 160-171, system.py 324-377 matrix_target_to_z_single with
    invert = False, and 395-412 matrix_at_single (offset_m is 0); the targets of a space and
    of a part are only compared with TargetRight *)
Fixpoint to_z_f (fuel : nat) (t : tree) (t1 : tidx) (z : R) : res arr :=
  match fuel with
  | O => Err OutOfFuel
  | S fuel =>
      let right := match path t1, at_ t1 with [], TR => true | _, _ => false end in
      match t with
      | Sp L n =>
          if Rlt_dec z 0 then Err RuntimeError else if Rlt_dec L z then Err RuntimeError else
          Ok (Mat (M2 1 (if right then (z - L) / n else z / n) 0 1))
      | Thin p env =>
          if Req_EM_T z 0 then if right then part_matrix_inv p env else Ok (part_matrix p env) else Err RuntimeError
      | Tgt => if Req_EM_T z 0 then Ok (Mat (M2 1 0 0 1)) else Err RuntimeError
      | Node l =>
          let ps := positions 0 l in
          let at_single :=
            match sorted_right ps z with
            | O => Ok (matrix_space z)
            | S idx =>
                if decide (idx < length l)%nat then
                  c ← lookup_err l idx; m ← to_z_f fuel c (Tidx [] TL) (z - nth idx ps 0);
                  Ok (amul m (mats (take idx l) eye))
                else Ok (amul (matrix_space (z - nth (length l) ps 0)) (matrix t))
            end in
          match path t1, at_ t1 with
          | [], TL => at_single
          | [], TR => mat ← at_single; i ← apow_inv (matrix t); Ok (amul mat i)
          | [], TQ => Err TypeError
          | o1 :: p1, a1 =>
              c ← lookup_err l o1;
              let pos_L := nth o1 ps 0 in let pos_R := nth (o1 + 1) ps 0 in
              if Rlt_dec z pos_L then
                mat ← between c (Tidx p1 a1) (Tidx [] TL);
                match sorted_left ps z with
                | S idx =>
                    mat ← mats_inv (slice l (idx + 1) o1) mat;
                    c' ← lookup_err l idx; m ← to_z_f fuel c' (Tidx [] TR) (z - nth idx ps 0); Ok (amul m mat)
                | O => mat ← mats_inv (take o1 l) mat; Ok (amul (matrix_space (z - nth 0 ps 0)) mat)
                end
              else if Rlt_dec pos_R z then
                mat ← between c (Tidx p1 a1) (Tidx [] TR);
                let idx := (sorted_right ps z - 1)%nat in
                if decide (idx < length l)%nat then
                  let mat := mats (slice l (o1 + 1) idx) mat in
                  c' ← lookup_err l idx; m ← to_z_f fuel c' (Tidx [] TL) (z - nth idx ps 0); Ok (amul m mat)
                else Ok (amul (matrix_space (z - nth (length l) ps 0)) (mats (drop (o1 + 1) l) mat))
              else to_z_f fuel c (Tidx p1 a1) (z - pos_L)
          end
      end
  end.
Fixpoint depth (t : tree) : nat :=
  match t with Node l => S (foldr (fun c v => Nat.max (depth c) v) 0%nat l) | _ => 1%nat end.
Definition to_z (t : tree) (t1 : tidx) (z : R) : res arr := to_z_f (depth t) t t1 z.
(** system.py 384-393 target_pos, space.py 100-108, bases.py 190-191 *)
Fixpoint target_pos_f (fuel : nat) (t : tree) (t1 : tidx) : res R :=
  match fuel with
  | O => Err OutOfFuel
  | S fuel =>
      match t with
      | Thin _ _ | Tgt => Ok 0
      | Sp L _ => match path t1, at_ t1 with [], TL => Ok 0 | [], TR => Ok L | _, _ => Err RuntimeError end
      | Node l =>
          match path t1, at_ t1 with
          | [], TL => Ok 0
          | [], TR => Ok (width t)
          | [], TQ => Err TypeError
          | o1 :: p1, a1 => c ← lookup_err l o1; x ← target_pos_f fuel c (Tidx p1 a1); Ok (nth o1 (positions 0 l) 0 + x)
          end
      end
  end.
Definition target_pos (t : tree) (t1 : tidx) : res R := target_pos_f (S (length (path t1))) t t1.

(** * Building: bases.py 62-70 env_reversed, system.py 85-221 component_pos_pairings of System
    (components sorted by place, none truncated), 471-496 of SystemStack.  The gaps are spaces
    of the index [n0] of the environment. *)
Inductive comp :=
  | CPart (reversed : bool) (p : part)
  | CSpace (L n : R)
  | CTarget
  | CStack (reversed : bool) (l : list comp)
  | CPlaced (reversed : bool) (l : list (R * comp)).
Section build.
  Context (n0 : R).
  Fixpoint fill (prev : R) (l : list (R * tree)) : list tree :=
    match l with
    | [] => []
    | (loc, c) :: l => Sp (loc - prev) n0 :: c :: fill (loc + width c) l
    end.
  Definition fill0 (l : list (R * tree)) : list tree :=
    match l with [] => [] | (loc, c) :: l => c :: fill (loc + width c) l end.
  Fixpoint build (env : bool) (c : comp) : tree :=
    match c with
    | CPart r p => Thin p (xorb env r)
    | CSpace L n => Sp L n
    | CTarget => Tgt
    | CStack r l =>
        let cs := map (build (xorb env r)) l in
        Node (if xorb env r then rev cs else cs)
    | CPlaced r l =>
        let cs := map (fun x => let t := build (xorb env r) (snd x) in
                                (if xorb env r then - width t - fst x else fst x, t)) l in
        Node (fill0 (if xorb env r then rev cs else cs))
    end.
End build.

(** * Compound parts: composites.py PLCX 22-61, CXCX 94-130, PLCXMirror 169-218; [n_in] and [n_out]
    are the indices of the two substrates *)
Definition PLCX (reversed : bool) (n_in n_out L : R) (R_m : option R) : comp :=
  CStack reversed [CPart false (LensInterface n_out n_in R_m); CSpace L n_in; CPart false (LensInterface n_in n_out None)].
Definition CXCX (reversed : bool) (n_in n_out L R1 R2 : R) : comp :=
  CStack reversed [CPart false (LensInterface n_out n_in (Some R1)); CSpace L n_in;
                   CPart false (LensInterface n_in n_out (Some (- R2)))].
Definition PLCXMirror (reversed : bool) (n_in n_out L : R) (R_m : option R) : comp :=
  CStack reversed [CPart false (LensInterface n_out n_in None); CSpace L n_in; CPart false (Mirror R_m);
                   CSpace L n_in; CPart false (LensInterface n_in n_out None)].

(** * Beam parameters: beam_param.py *)
Record beam := Beam { value : C_fld; wavelen : R; gouy : C_fld }.
(** 38-108 the constructors; gouy_phasor left out is 1.  [1/iq] of the numbers is the inverse of
    the complex number *)
Definition from_Z_ZR (Z ZR lam : R) : beam := Beam (cre Z + ci * cre ZR)%F lam 1%F.
Definition from_Z_W0 (Z W0 lam : R) : beam := Beam (cre Z + ci * cre (PI * (W0 * W0) / lam))%F lam 1%F.
Definition from_W_R (W Rc lam : R) : beam :=
  if Req_EM_T Rc 0 then Beam (ci * cre (PI * (W * W)) / cre lam)%F lam 1%F
  else Beam (1 / (cre (1 / Rc) - ci * cre lam / cre (PI * (W * W))))%F lam 1%F.
Definition from_dRad_Z (theta Z lam : R) : beam := from_Z_W0 Z (2 * lam / (PI * theta)) lam.
(** 111-144 *)
Definition b_Z (b : beam) : R := fst (value b).
Definition b_ZR (b : beam) : R := snd (value b).
Definition b_W0 (b : beam) : R := R_sqrt.sqrt (wavelen b * b_ZR b / PI).
Definition b_W (b : beam) : R := R_sqrt.sqrt (- wavelen b / (snd (1 / value b)%F * PI)).
Definition b_R_inv (b : beam) : R := fst (1 / value b)%F.
Definition b_R (b : beam) : R := 1 / b_R_inv b.
Definition b_divergence (b : beam) : R := 2 * wavelen b / (PI * b_W0 b).
(** 145-166 sensitivity_matrix and its root *)
Definition sensitivity (b : beam) : m2 :=
  let k := 2 * PI / wavelen b in let ZR := b_ZR b in let Z := - b_Z b in
  let s := - k / (4 * ZR) in M2 s (s * Z) (s * Z) (s * (Z * Z + ZR * ZR)).
Definition sensitivity_sqrt (b : beam) : m2 :=
  let SM := sensitivity b in
  let a := - m00 SM in let b := - m01 SM in let c := - m10 SM in let d := - m11 SM in
  let s := R_sqrt.sqrt (a * d - b * c) in let t := R_sqrt.sqrt (a + d + 2 * s) in
  M2 ((a + s) / t) (b / t) (c / t) ((d + s) / t).
(** 168-183 propagate_matrix, 185-200 propagate_distance *)
Definition propagate_matrix (b : beam) (m : m2) : beam :=
  let tanPhiA := wavelen b * m01 m in
  let tanPhiB := (m00 m + m01 m * b_R_inv b) * PI * (b_W b * b_W b) in
  Beam ((value b * cre (m00 m) + cre (m01 m)) / (value b * cre (m10 m) + cre (m11 m)))%F
       (wavelen b * det m) (gouy b * (cre tanPhiB + cre tanPhiA * ci))%F.
Definition propagate_distance (b : beam) (L : R) : beam := propagate_matrix b (M2 1 L 0 1).
(** 205-209 overlap_with, 230-236 reversed *)
Definition overlap (a b : beam) : C_fld :=
  (value a * cconj (value b) / (cconj (value b) - value a)
    * cre (2 * wavelen a / (b_W b * b_W a * PI)) * - ci)%F.
Definition b_reversed (b : beam) : beam := Beam (- cconj (value b))%F (wavelen b) (gouy b).
(** utils.py 66-72 eigen_q; [abs] of a real number *)
Definition eigen_q (m : m2) : C_fld :=
  ((m00 m - m11 m) / (2 * m10 m),
   R_sqrt.sqrt (- ((m11 m - m00 m) * (m11 m - m00 m) + 4 * m01 m * m10 m)) / (2 * Rabs (m10 m))).
