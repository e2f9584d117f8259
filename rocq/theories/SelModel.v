(** Model of the selectors, phasor/optics/selectors.py and selective_mirrors.py.  A key is a finite
    map (base/dictionary_keys.py, see KeysModel.v and C19 for the class itself); couplings are lists of
    injections.  Not modelled: the mechanical ports of the mirror stacks and their pchain
    (selective_mirrors.py 25-58), the names of the ports. *)
From stdpp Require Import base tactics numbers gmap list fin_maps.
From Verif Require Import Fld Py Herm InjModel OptModel.
Local Open Scope fld_scope.

Section selectors.
  Context {P A V : Type} `{Countable P} `{Countable A} `{Countable V}.
  Notation key := (gmap A V).
  Notation node := (P * key)%type.
  Notation js := (list (inj C_fld P key)).

  (** base/dictionary_keys.py __and__: the items in common; as a condition it is true if not empty *)
  Definition k_and (a b : key) : key := filter (fun kv => b !! kv.1 = Some kv.2) a.
  Definition k_true (a : key) : bool := bool_decide (a <> ∅).

  (** a back port with the key of select_map: port_map[name] = (port, key), 80-84 *)
  Record back := Back { b_i : P; b_o : P; b_key : key }.

  (** 91-100, 107-113 and 122-127: the ports for which the body is run; N_selections is their number *)
  Fixpoint chosen (check : bool) (k : key) (bs : list back) : list back :=
    match bs with
    | [] => []
    | b :: bs => if k_true (k_and (b_key b) k) then b :: (if check then chosen check k bs else []) else chosen check k bs
    end.
  (** 101 and 128: assert(N_selections == 1) *)
  Definition chosen_one (check : bool) (k : key) (bs : list back) : res (list back) :=
    if decide (length (chosen check k bs) = 1%nat) then Ok (chosen check k bs) else Err AssertionError.

  (** GenericSelector.system_setup_ports 87-117: what is requested, [up] being the new keys of a port *)
  Definition selector_ports (check : bool) (fr_i fr_o : P) (bs : list back) (up : P -> list key) : res (list node) :=
    r ← mfor (fun acc k => l ← chosen_one check k bs; Ok (acc ++ ((fun b => (b_o b, k)) <$> l))) (up fr_i) [];
    Ok (r ++ (bs ≫= fun b => (fun k => (fr_o, k)) <$> up (b_i b))
          ++ (up fr_o ≫= fun k => (fun b => (b_i b, k)) <$> chosen check k bs)
          ++ (bs ≫= fun b => (fun k => (fr_i, k)) <$> up (b_o b))).
  (** GenericSelector.system_setup_coupling 119-132; [have] are the keys of a port *)
  Definition selector (check : bool) (fr_i fr_o : P) (bs : list back) (have : P -> list key) : res js :=
    r ← mfor (fun acc k => l ← chosen_one check k bs; Ok (acc ++ ((fun b => ConstantEdge (fr_i, k) (b_o b, k) 1) <$> l))) (have fr_i) [];
    Ok (r ++ (bs ≫= fun b => (fun k => ConstantEdge (b_i b, k) (fr_o, k) 1) <$> have (b_i b))).

  (** PolSelector 15-67 *)
  Definition pol_of (bP bS : back) (k : key) : res back :=
    if k_true (k_and (b_key bP) k) then Ok bP else if k_true (k_and (b_key bS) k) then Ok bS else Err AssertionError.
  Definition pol_ports (fr_i fr_o : P) (bP bS : back) (up : P -> list key) : res (list node) :=
    r1 ← mfor (fun acc k => b ← pol_of bP bS k; Ok (acc ++ [(b_o b, k)])) (up fr_i) [];
    r2 ← mfor (fun acc k => b ← pol_of bP bS k; Ok (acc ++ [(b_i b, k)])) (up fr_o) [];
    Ok (r1 ++ ((fun k => (fr_o, k)) <$> up (b_i bP)) ++ ((fun k => (fr_o, k)) <$> up (b_i bS))
        ++ r2 ++ ((fun k => (fr_i, k)) <$> up (b_o bP)) ++ ((fun k => (fr_i, k)) <$> up (b_o bS))).
  (** 63-66: both loops insert from Bk_P.i *)
  Definition pol_selector (fr_i fr_o : P) (bP bS : back) (have : P -> list key) : res js :=
    r ← mfor (fun acc k => b ← pol_of bP bS k; Ok (acc ++ [ConstantEdge (fr_i, k) (b_o b, k) 1])) (have fr_i) [];
    Ok (r ++ ((fun k => ConstantEdge (b_i bP, k) (fr_o, k) 1) <$> have (b_i bP))
          ++ ((fun k => ConstantEdge (b_i bP, k) (fr_o, k) 1) <$> have (b_i bS))).
End selectors.

Section stack.
  Context {E N A V : Type} `{Countable E} `{Countable N} `{Countable A} `{Countable V}.
  Notation key := (gmap A V).
  (** OpticalSelectionStack.__build__ 151-195.  [els]: the sub elements with the names of their ports
      (all of them optical), without repetition *)
  (** 159-171: how many elements have the port *)
  Definition optical_ports (els : list (E * list N)) : gmap N nat :=
    foldr (fun el m => foldr (fun p m => <[p := S (default 0%nat (m !! p))]> m) m el.2) ∅ els.
  (** 174-181: line 178 compares, it does not assign *)
  Definition port_check (m : gmap N nat) : res (option nat) :=
    mfor (fun cmn (pn : N * nat) =>
      if decide (Some pn.2 <> cmn) then match cmn with None => Ok cmn | Some _ => Err AssertionError end else Ok cmn)
      (map_to_list m) None.
  (** 184-195: one selector for each port, whose back port [ename] is bonded to the port of the element *)
  Definition stack_bonds (els : list (E * list N)) (sel : gmap E key) (ports : list N) : res (list (N * E)) :=
    mfor (fun acc p =>
      mfor (fun acc (el : E * list N) =>
        if decide (p ∈ el.2) then
          if decide (is_Some (sel !! el.1)) then Ok (acc ++ [(p, el.1)]) else Err KeyError
        else Err AttributeError) els acc) ports [].
  Definition stack_build (els : list (E * list N)) (sel : gmap E key) (port_set : option (list N)) : res (list (N * E)) :=
    match port_set with
    | Some ports => stack_bonds els sel ports
    | None => _ ← port_check (optical_ports els); stack_bonds els sel (map_to_list (optical_ports els)).*1
    end.
End stack.

(** selective_mirrors.py 78-94: PolarizingMirror and PolarizingSelector select by one entry, and so do
    HarmonicMirror and HarmonicSelector 98-159 *)
Definition by_entry {P A V} `{Countable A} (e : A) (l : list ((P * P) * V)) : list (back (P := P) (A := A) (V := V)) :=
  (fun '((i, o), v) => Back i o {[e := v]}) <$> l.
