(** Model of the levers in /repo/phasor/mechanical/xyz.py and of the string in
    /repo/phasor/mechanical/string.py: the couplings each system_setup_coupling inserts,
    one key at a time (every loop couples a key to itself), as in ElecModel.v.
    NumPy's 3-vectors are functions on the three axes. *)
From Coq Require Import Reals.
From stdpp Require Import base tactics list numbers.
From Verif Require Import Py Fld Herm ElecModel SigModel.

Inductive axis := AxX | AxY | AxZ.
Inductive pABL := LA | LB | LL.
#[global] Instance axis_eq_dec : EqDecision axis. Proof. solve_decision. Defined.
#[global] Instance pABL_eq_dec : EqDecision pABL. Proof. solve_decision. Defined.
Definition axes : list axis := [AxX; AxY; AxZ].

Section lever.
  Context {K : fld}.
  Local Open Scope fld_scope.
  Notation two := (1 + 1 : K).

  (** xyz.py 313-327 and 532-544: matrix_inject; entries equal to 0 are left out *)
  Definition inject {P} (ports1 ports2 : list P) {X Y} (ix1 : P -> X) (ix2 : P -> Y) (m : X -> Y -> K) : list (edge P) :=
    p1 ← ports1; p2 ← ports2;
    if decide (m (ix1 p1) (ix2 p2) = 0) then [] else [(I p1, O p2, m (ix1 p1) (ix2 p2))].

  (** xyz.py 522-546: Moment1D, ports [pm_A, pm_B, L]; row first *)
  Definition lever1_matrix (d : K) (p q : pABL) : K :=
    let den := d * d + two in
    match p, q with
    | LA, LA => d * d / den | LA, LB => two / den | LA, LL => two * d / den
    | LB, LA => two / den | LB, LB => d * d / den | LB, LL => - (two * d) / den
    | LL, LA => two * d / den | LL, LB => - (two * d) / den | LL, LL => (- (d * d) + two) / den
    end.
  Definition lever1 (d : K) : list (edge pABL) :=
    let ps := [LA; LB; LL] in inject ps ps (fun p => p) (fun p => p) (lever1_matrix d).

  (** xyz.py 284-345: XYZMomentDriver; [d] stands for dLsq**.5 (292) *)
  Definition vec := axis -> K.
  Definition np_dot (u v : vec) : K := fsum (fun i => u i * v i) axes.
  Definition np_eye (i j : axis) : K := if decide (i = j) then 1 else 0.
  (** 293, 295-299, 301-302 *)
  Definition P_d (dv : vec) (i j : axis) : K := dv i * dv j / np_dot dv dv.
  Definition P_force (d : K) (dv : vec) (i j : axis) : K :=
    match i, j with
    | AxX, AxX => 0 / d | AxX, AxY => dv AxZ / d | AxX, AxZ => - dv AxY / d
    | AxY, AxX => - dv AxZ / d | AxY, AxY => 0 / d | AxY, AxZ => dv AxX / d
    | AxZ, AxX => dv AxY / d | AxZ, AxY => - dv AxX / d | AxZ, AxZ => 0 / d
    end.
  Definition P_torque (d : K) (dv : vec) (i j : axis) : K := - P_force d dv i j.
  Definition I_sub (dv : vec) (i j : axis) : K := np_eye i j - P_d dv i j.
  Definition port3 : Type := pABL * axis.
  Definition ports3 (t : pABL) : list port3 := map (pair t) axes.
  Definition inject3 (t1 t2 : pABL) (m : axis -> axis -> K) : list (edge port3) :=
    inject (ports3 t1) (ports3 t2) snd snd m.
  (** 331-344 *)
  Definition lever3 (d : K) (dv : vec) : list (edge port3) :=
    let den := d * d + two in
    inject3 LA LA (fun i j => d * d / den * I_sub dv i j) ++
    inject3 LB LB (fun i j => d * d / den * I_sub dv i j) ++
    inject3 LL LL (fun i j => (two - d * d) / den * I_sub dv i j + P_d dv i j) ++
    inject3 LA LL (fun i j => two * d / den * P_torque d dv i j) ++
    inject3 LL LA (fun i j => two * d / den * P_force d dv i j) ++
    inject3 LB LL (fun i j => - (two * d) / den * P_torque d dv i j) ++
    inject3 LL LB (fun i j => - (two * d) / den * P_force d dv i j) ++
    inject3 LA LB (fun i j => two / den * I_sub dv i j + P_d dv i j) ++
    inject3 LB LA (fun i j => two / den * I_sub dv i j + P_d dv i j).

  (** string.py 96-121: ZConverter at s = i2pi * F; [tiny] is 1e-18, [mob] mobility_Ns_m *)
  Context (Z0 s tiny mob : K).
  Definition zY1 : K := s * 1 / Z0 + tiny.
  Definition zY2 : K := s * mob + tiny.
  Definition zconverter : list (edge pAB) :=
    smatrix2 ((zY1 - zY2) / (zY1 + zY2)) (two * zY1 / (zY1 + zY2))
             (two * zY2 / (zY1 + zY2)) ((zY2 - zY1) / (zY1 + zY2)).
End lever.

(** xyz.py 291-292, and XYZMomentDriver with a real displacement *)
Definition len3 (dv : axis -> R) : R := R_sqrt.sqrt (dv AxX * dv AxX + dv AxY * dv AxY + dv AxZ * dv AxZ)%R.
Definition xyz_moment_driver (dv : axis -> R) : list (edge (K := C_fld) port3) :=
  lever3 (cre (len3 dv)) (fun i => cre (dv i)).

(** xyz.py 417-488: MomentDriver.  Only the shapes of the arrays are modelled: NumPy checks
    the index [idx1, idx2] against them at each matrix_inject.  A has one port, B and L three.
    [keys p]: how many keys port_set_get(p.i) has. *)
Inductive pMD := MA | MB (i : axis) | ML (i : axis).
Definition axis_ix (i : axis) : nat := match i with AxX => 0 | AxY => 1 | AxZ => 2 end.
(** arr[i, j] on an array of the given shape *)
Definition np_index2 (shape : list nat) (i j : nat) : res unit :=
  match shape with
  | [n; m] => if decide (i < n /\ j < m)%nat then Ok tt else Err IndexError
  | _ => Err IndexError
  end.
(** 453-462 *)
Definition inject_shape (keys : pMD -> nat) (ports1 ports2 : list pMD) (shape : list nat) : res unit :=
  mfor (fun _ ip => mfor (fun _ jq => mfor (fun _ _ => np_index2 shape ip.1 jq.1) (seq 0 (keys ip.2)) tt)
    (imap pair ports2) tt) (imap pair ports1) tt.
(** 476-487.  Shapes: P_force is (3, 1), P_torque its transpose (1, 3), P_FT (3, 3);
    P_vNvnD is a number (np.dot of two 1-d arrays), so 477 is (3, 3); vN_vec_noD and
    dN_vec_noV are (3,), as is the transpose of a 1-d array *)
Definition moment_driver (keys : pMD -> nat) : res unit :=
  let A := [MA] in let B := map MB axes in let L := map ML axes in
  _ ← inject_shape keys A A [1; 1]; _ ← inject_shape keys B B [3; 3]; _ ← inject_shape keys L L [3; 3];
  _ ← inject_shape keys A L [1; 3]; _ ← inject_shape keys L A [3; 1];
  _ ← inject_shape keys B L [1; 3]; _ ← inject_shape keys L B [3; 1];
  _ ← inject_shape keys A B [3]; inject_shape keys B A [3].
