(** Model of noise sources and noise readouts: phasor/system/matrix_algorithm.py 119-150,
    phasor/signals/noise.py, phasor/optics/vacuum.py, phasor/electronics/noise.py,
    phasor/mechanical/noise.py, phasor/readouts/noise.py and the spectra of
    phasor/readouts/homodyne_AC.py.

    Values are complex numbers, one frequency at a time; they are all finite, so the branch for
    values which are not finite is not modelled.  A dict which is iterated is the list of its
    items in insertion order. *)
From Coq Require Import Reals.
From stdpp Require Import base tactics numbers gmap list.
From Verif Require Import Fld Py Herm SigModel.

(** d[k] = v *)
Fixpoint dict_set {A B} `{EqDecision A} (k : A) (v : B) (d : list (A * B)) : list (A * B) :=
  match d with
  | [] => [(k, v)]
  | (k', v') :: d => if decide (k' = k) then (k', v) :: d else (k', v') :: dict_set k v d
  end.
(** d.get(k) *)
Fixpoint dict_get {A B} `{EqDecision A} (k : A) (d : list (A * B)) : option B :=
  match d with [] => None | (k', v) :: d => if decide (k' = k) then Some v else dict_get k d end.

Section noise.
  Context {Port Key Obj Name : Type}.
  Context `{Countable Port, Countable Key, Countable Obj, Countable Name}.
  Notation pk := (Port * Key)%type.
  Notation nmap := (gmap pk (gmap pk (list (pk * pk * Obj)))).

  (** matrix_algorithm.py 132-149 noise_pair_insert; [port_cplgs] holds the keys of a port after
      PostBondKey is taken off *)
  Definition noise_pair_insert (port_cplgs : Port -> option (gset Key)) (m : nmap) (x : pk * pk * Obj) : res nmap :=
    let '(pk1, pk2, nobj) := x in
    match port_cplgs pk1.1, port_cplgs pk2.1 with
    | None, _ => Err TypeError
    | Some s1, o2 =>
        if decide (pk1.2 ∈ s1) then
          match o2 with
          | None => Err TypeError
          | Some s2 =>
              if decide (pk2.2 ∈ s2) then
                let inner := default ∅ (m !! pk1) in
                Ok (<[pk1 := <[pk2 := default [] (inner !! pk2) ++ [x]]> inner]> m)
              else Err RuntimeError
          end
        else Err RuntimeError
    end.
  (** 119-130 _noise_map over the pairs inserted by all elements *)
  Definition noise_map (port_cplgs : Port -> option (gset Key)) (l : list (pk * pk * Obj)) : res nmap :=
    mfor (noise_pair_insert port_cplgs) l ∅.

  (** The pairs inserted by a source.  [keys] is the iteration of port_set_get; [conj] is the key of
      the opposite frequency (signals/noise.py 45-52, electronics/noise.py 80-87, 165-172,
      mechanical/noise.py 80-87, 151-158) or the key with LOWER and RAISE exchanged (vacuum.py
      41-52). *)
  Definition pairs_single (conj : Key -> Key) (nobj : Obj) (port : Port) (keys : list Key) : list (pk * pk * Obj) :=
    (fun k => ((port, k), (port, conj k), nobj)) <$> keys.
  (** electronics/noise.py 198-217, 246-266 of VoltageFluctuation2 and CurrentFluctuation2 *)
  Definition pairs_double (conj : Key -> Key) (nobj : Obj) (porti porto : Port) (keys : list Key) : list (pk * pk * Obj) :=
    keys ≫= fun k =>
      [ ((porto, k), (porto, conj k), nobj); ((porti, k), (porto, conj k), nobj);
        ((porto, k), (porti, conj k), nobj); ((porti, k), (porti, conj k), nobj) ].
  (** electronics/noise.py 219-225: V^2/4 on one port and -V^2/4 across *)
  Definition expect_voltage2 (psd : Key -> R) (conversion : R) (pk1 pk2 : pk) : C_fld :=
    cre (if decide (pk1.1 = pk2.1) then psd pk1.2 / conversion / 4 else - (psd pk1.2 / conversion) / 4)%R.
  (** 268-274, the impedance being real: Z^2 I^2/4 on both *)
  Definition expect_current2 (Z : R) (psd : Key -> R) (conversion : R) (pk1 pk2 : pk) : C_fld :=
    cre (Z * Z * (psd pk1.2 / conversion) / 4)%R.
  (** signals/noise.py 60-75, electronics/noise.py 89-92, 174-177, mechanical/noise.py *)
  Definition expect_single (psd : Key -> R) (conversion : R) (pk1 pk2 : pk) : C_fld :=
    cre (psd pk1.2 / conversion)%R.

  (** readouts/noise.py 113-121: the couplings into the readouts at [key] *)
  Definition kvecs (coupling : list ((pk * pk) * C_fld)) (port_map : list (Name * Port)) (key : Key)
      : list (Name * list (pk * C_fld)) :=
    foldl (fun kv x => let '((pkfrom, pkto), cplg) := x in
      foldl (fun kv y => let '(pname, port) := y in
        if decide (pkto = (port, key)) then dict_set pname (dict_set pkfrom cplg (default [] (dict_get pname kv))) kv else kv)
        kv port_map) [] coupling.
  Notation collect := (gmap Obj (gmap (Name * Name) C_fld)).
  (** ncollect[nobj][pnameP, pnameN] = ncollect[nobj][pnameP, pnameN] + x, of a defaultdict of defaultdict *)
  Definition collect_add (nobj : Obj) (p : Name * Name) (x : C_fld) (c : collect) : collect :=
    let inner := default ∅ (c !! nobj) in <[nobj := <[p := (default 0 (inner !! p) + x)%F]> inner]> c.
  (** 76-153 CSD_builds; [adjust] is adjust_PSD of the system, [expect] noise_2pt_expectation *)
  Definition CSD_builds (adjust : R) (expect : Obj -> pk -> pk -> C_fld) (nm : nmap)
      (coupling : list ((pk * pk) * C_fld)) (port_map : list (Name * Port)) (keyP keyN : Key)
      : gmap (Name * Name) C_fld * collect :=
    let nsums := foldl (fun s x => foldl (fun s y => <[(x.1, y.1) := 0%F]> s) s port_map) ∅ port_map in
    foldl (fun st x => let '(pnameP, kvecP) := x in
      foldl (fun st y => let '(pnameN, kvecN) := y in
        let '(nsum, ncollect) :=
          foldl (fun st z => let '(pk1, cplg1) := z in
            match nm !! pk1 with
            | None => st
            | Some nmap_inner =>
                foldl (fun st w => let '(pk2, cplg2) := w in
                  match nmap_inner !! pk2 with
                  | None => st
                  | Some vals =>
                      foldl (fun st v => let '(p1, p2, nobj) := v in
                        let pspec := (cre adjust * expect nobj p1 p2 * cplg1 * cplg2)%F in
                        let pspec := if decide (pnameP = pnameN) then cre (fst pspec) else pspec in
                        ((st.1 + pspec)%F, collect_add nobj (pnameP, pnameN) pspec st.2)) st vals
                  end) st kvecN
            end) (0%F, st.2) kvecP in
        (<[(pnameP, pnameN) := nsum]> st.1, ncollect)) st (kvecs coupling port_map keyN))
      (nsums, ∅) (kvecs coupling port_map keyP).
  (** 78-90: the same from a selection of sources, in the order [l] *)
  Definition CSD_external (l : list (Obj * list ((Name * Name) * C_fld))) : gmap (Name * Name) C_fld :=
    foldl (fun s x => foldl (fun s y =>
      <[y.1 := match s !! y.1 with None => y.2 | Some z => (z + y.2)%F end]> s) s x.2) ∅ l.
End noise.

(** * readouts/homodyne_AC.py: 2x2 matrices at one frequency *)
Record mat2 (A : Type) := Mt { e00 : A; e01 : A; e10 : A; e11 : A }.
Arguments Mt {A} _ _ _ _. Arguments e00 {A} _. Arguments e01 {A} _. Arguments e10 {A} _. Arguments e11 {A} _.
Local Open Scope R_scope.
(** 106-116 rotation_matrix_back *)
Definition rotation (phase_deg : R) : mat2 R :=
  let p := phase_deg * PI / 180 in Mt (cos p) (sin p) (- sin p) (cos p).
(** 118-133 AC_CSD_IQ_back: R M R^T *)
Definition rotate (r : mat2 R) (m : mat2 C_fld) : mat2 C_fld :=
  let a := Mt (cre (e00 r) * e00 m + cre (e01 r) * e10 m)%F (cre (e00 r) * e01 m + cre (e01 r) * e11 m)%F
              (cre (e10 r) * e00 m + cre (e11 r) * e10 m)%F (cre (e10 r) * e01 m + cre (e11 r) * e11 m)%F in
  Mt (e00 a * cre (e00 r) + e01 a * cre (e01 r))%F (e00 a * cre (e10 r) + e01 a * cre (e11 r))%F
     (e10 a * cre (e00 r) + e11 a * cre (e01 r))%F (e10 a * cre (e10 r) + e11 a * cre (e11 r))%F.
Definition AC_CSD_IQ (phase_deg : R) (m : mat2 C_fld) : mat2 C_fld := rotate (rotation phase_deg) m.
(** 81-83 AC_PSD *)
Definition AC_PSD (phase_deg : R) (m : mat2 C_fld) : C_fld := e00 (AC_CSD_IQ phase_deg m).
(** 308-316 AC_sensitivity_IQ of the responses (i, q) *)
Definition AC_sensitivity_IQ (phase_deg : R) (i q : C_fld) : C_fld * C_fld :=
  let p := phase_deg * PI / 180 in
  ((cre (cos p) * i + cre (sin p) * q)%F, (- cre (sin p) * i + cre (cos p) * q)%F).
(** 141-143 AC_CSD_IQ_re_inv_back, 149-157 AC_noise_limited_sensitivity_optimal *)
Definition re_inv (m : mat2 C_fld) : mat2 R :=
  let a := fst (e00 m) in let b := fst (e01 m) in let c := fst (e10 m) in let d := fst (e11 m) in
  let det := a * d - b * c in Mt (d / det) (- b / det) (- c / det) (a / det).
Definition optimal2 (n : mat2 C_fld) (s : C_fld * C_fld) : C_fld :=
  let i := re_inv n in
  (1 / ((s.1 * cre (e00 i) + s.2 * cre (e10 i)) * cconj s.1 + (s.1 * cre (e01 i) + s.2 * cre (e11 i)) * cconj s.2))%F.
(** 167-189 AC_CSD_ellipse: min, max, Imin, Qmin *)
Definition ell_disc (m : mat2 C_fld) : R :=
  R_sqrt.sqrt ((fst (e00 m) - fst (e11 m)) * (fst (e00 m) - fst (e11 m)) + 4 * (fst (e01 m) * fst (e10 m))).
Definition ell_min (m : mat2 C_fld) : R := (fst (e00 m) + fst (e11 m) - ell_disc m) / 2.
Definition ell_max (m : mat2 C_fld) : R := (fst (e00 m) + fst (e11 m) + ell_disc m) / 2.
Definition ell_Imin (m : mat2 C_fld) : R := fst (e00 m) - Rabs (fst (e10 m)) * Rabs (fst (e10 m)) / fst (e11 m).
Definition ell_Qmin (m : mat2 C_fld) : R := fst (e11 m) - Rabs (fst (e10 m)) * Rabs (fst (e10 m)) / fst (e00 m).
(** the angle of the ellipse in rad, where max <> min; [disc < 0] is cut to 0 *)
Definition ell_rad (m : mat2 C_fld) : R :=
  let d := Rmax 0 (fst (e00 m) - ell_min m) in
  let sgn := if Rlt_dec 0 (fst (e10 m)) then 1 else -1 in
  PI - acos (sgn * R_sqrt.sqrt (d / (ell_max m - ell_min m))).
