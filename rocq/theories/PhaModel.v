(** Model of the phase helpers of /repo/phasor/utilities/np.py: continuous_phase 40-97,
    mag_phase_signed 131-136 and group_delay 138-143.  Numbers are real, without rounding; inf and nan
    are left out.  The data enters by its angles, the answer of np.angle, one for each sample, and there
    are two samples or more. *)
From Coq Require Import Reals List Lra.
From Verif Require Import Py.
Import ListNotations.
Local Open Scope R_scope.

(** x > y *)
Definition gt (x y : R) : bool := if Rlt_dec y x then true else false.
(** np.diff, and np.convolve([1, -1], l, mode = 'valid') *)
Fixpoint diffs (l : list R) : list R :=
  match l with
  | x :: (y :: _) as l => (y - x) :: diffs l
  | _ => []
  end.
(** 140-141 *)
Definition wrap (d : R) : R :=
  let d := if gt d (1 * PI) then d - 2 * PI else d in
  if gt (- (1) * PI) d then d + 2 * PI else d.
(** 142-143; F[-len(dang):] are all but the first *)
Fixpoint ratios (mult : R) (dang dF : list R) : list R :=
  match dang, dF with a :: dang, f :: dF => (mult * a / f) :: ratios mult dang dF | _, _ => [] end.
Definition group_delay (F angles : list R) (mult : R) : list R * list R :=
  (tl F, ratios mult (map wrap (diffs angles)) (diffs F)).

(** x % m of Python for m > 0 *)
Definition pymod (x m : R) : R := x - m * IZR (Int_part (x / m)).
(** 131-136; [v] is the pair of its parts and [angle] is np.angle(v) *)
Definition mag_phase_signed (v : R * R) (angle : R) (deg : bool) : R * R :=
  let ang := pymod (angle + PI * 9 / 4) PI - PI / 4 in
  let mag := fst v * cos (- ang) - snd v * sin (- ang) in
  (mag, if deg then 180 / PI * ang else ang).

(** 40-97; where a step passes [sep] the median is looked up at len / 2, which is not an integer type *)
Definition average (l : list R) : R := fold_right Rplus 0 l / INR (length l).
Definition continuous_phase (angles : list R) (sep : R) (deg : bool) : res (list R) :=
  let where_up := filter (fun d => gt d (Rabs sep)) (diffs angles) in
  let where_down := filter (fun d => gt (- Rabs sep) d) (diffs angles) in
  match where_up, where_down with
  | [], [] =>
      let raw_angle := if gt (- PI / 4) (average angles) then map (fun a => a + PI * 2) angles else angles in
      Ok (if deg then map (fun a => a * (180 / PI)) raw_angle else raw_angle)
  | _, _ => Err IndexError
  end.
