(** Model of /repo/phasor/system/ports_algorithm.py: PortUpdatesAlgorithm 18-244.
    Elements, ports and frequency keys are any countable types.  An element's
    system_setup_ports is a function of the sets it can read (its update sets and the
    full sets) to the list of (port, key) requests it makes; the time argument lets
    the order, and the requests themselves, depend on anything else.  The sets are read before the
    requests are made: for the ports the element owns this is what the double buffer
    guarantees; a request for a port the element owns only virtually changes its update
    set at once (130-134), which Python would report as an error if that set was being
    iterated over.  [print] on a missing connection is dropped.  [k in NOARG] is False. *)
From stdpp Require Import base tactics list numbers gmap fin_sets.
From Verif Require Import Py.

Section ports.
  Context {E P K : Type} `{Countable E} `{Countable P} `{Countable K}.

  (** The parts of the system read here: port_owners and port_owners_virtual
      (system.py 386-394, 506-512), bond_pairs, and system_setup_ports (None: the
      element has no such method) *)
  Record sys := Sys {
    owner : P -> option E;
    vowners : P -> gset E;
    oports : E -> list P;          (* owners_ports *)
    vports : E -> list P;          (* owners_ports_virtual *)
    bonds : list (P * P);
    rule : E -> option (nat -> (P -> gset K) -> (P -> gset K) -> list (P * K));
  }.
  Context (S : sys).
  (** [set.pop]: any choice, possibly different at each step *)
  Context (popE : nat -> gset E -> E) (popP : nat -> gset P -> P).

  Definition fupd {A B} `{EqDecision A} (f : A -> B) (a : A) (b : B) : A -> B :=
    fun a' => if decide (a' = a) then b else f a'.

  (** port_cplgs, port_cplgs_update, port_cplgs_updateX, owners_update, _current_element *)
  Record st := St {
    cplgs : P -> gset K; upd : E * P -> gset K; updX : P -> gset K;
    dirty : gset E; cur : option E }.

  (** __init__ 18-48 *)
  Definition st_init : st := St (fun _ => ∅) (fun _ => ∅) (fun _ => ∅) ∅ None.

  Definition upd_add (u : E * P -> gset K) (e : E) (p : P) (k : K) : E * P -> gset K :=
    fupd u (e, p) ({[k]} ∪ u (e, p)).

  (** whether key (_current_element, pto) finds [kto] in port_cplgs_update 115, 119 *)
  Definition in_current (s : st) (p : P) (k : K) : Prop :=
    match cur s with Some e => k ∈ upd s (e, p) | None => False end.
  Global Instance in_current_dec s p k : Decision (in_current s p k).
  Proof. unfold in_current. destruct (cur s); apply _. Defined.

  (** _coherent_sources_needed 113-135 *)
  Definition csn1 (s : st) (p : P) (k : K) : st :=
    match owner S p with
    | None => s
    | Some o =>
        if decide (k ∈ cplgs s p \/ in_current s p k) then s else
        let s1 :=
          if decide (cur s = Some o)
          then St (cplgs s) (upd s) (fupd (updX s) p ({[k]} ∪ updX s p)) ({[o]} ∪ dirty s) (cur s)
          else St (cplgs s) (upd_add (upd s) o p k) (updX s) ({[o]} ∪ dirty s) (cur s) in
        foldr (fun v s => St (cplgs s) (upd_add (upd s) v p k) (updX s) ({[v]} ∪ dirty s) (cur s))
          s1 (elements (vowners S p))
    end.

  (** bond_pairs.get and bond_pairsR.get 154-159 *)
  Definition nbrs (p : P) : list P :=
    (filter (fun b => b.1 = p) (bonds S)).*2 ++ (filter (fun b => b.2 = p) (bonds S)).*1.

  (** the while loop of coherent_sources_needed 144-161 *)
  Fixpoint csn_loop (fuel : nat) (s : st) (k : K) (todo done : gset P) : res st :=
    match fuel with
    | 0 => Err OutOfFuel
    | Datatypes.S fuel =>
        if decide (todo = ∅) then Ok s else
        let p := popP fuel todo in
        let todo := todo ∖ {[p]} in
        if decide (p ∈ done) then csn_loop fuel s k todo done else
        csn_loop fuel (csn1 s p k) k (todo ∪ list_to_set (nbrs p)) ({[p]} ∪ done)
    end.
  (** coherent_sources_needed 137-162 (and port_coupling_needed 92, prev_solution_needed 95,
      readout_port_needed 167, drive_port_needed 172, which call it) *)
  Definition csn (fuel : nat) (s : st) (pk : P * K) : res st :=
    csn_loop fuel (csn1 s pk.1 pk.2) pk.2 {[pk.1]} ∅.

  (** one port of resolve_port_updates 74-82, 83-90 *)
  Definition resolve1 (e : E) (s : st) (p : P) : st :=
    St (fupd (cplgs s) p (cplgs s p ∪ upd s (e, p)))
       (fupd (upd s) (e, p) (updX s p)) (fupd (updX s) p ∅) (dirty s) (cur s).
  (** resolve_port_updates 70-90 *)
  Definition resolve (e : E) (s : st) : st :=
    let s := St (cplgs s) (upd s) (updX s) (dirty s) None in
    foldl (resolve1 e) (foldl (resolve1 e) s (oports S e)) (vports S e).

  (** one iteration of the loop 59-68 *)
  Definition turn (fuel t : nat) (e : E) (s : st) : res st :=
    match rule S e with
    | None => Ok s
    | Some r =>
        let s := St (cplgs s) (upd s) (updX s) (dirty s) (Some e) in
        s' ← mfor (csn fuel) (r t (fun p => upd s (e, p)) (cplgs s)) s;
        Ok (resolve e s')
    end.
  Fixpoint port_loop (fuel : nat) (s : st) : res st :=
    match fuel with
    | 0 => Err OutOfFuel
    | Datatypes.S fuel =>
        if decide (dirty s = ∅) then Ok s else
        let e := popE fuel (dirty s) in
        s' ← turn fuel fuel e (St (cplgs s) (upd s) (updX s) (dirty s ∖ {[e]}) (cur s));
        port_loop fuel s'
    end.
  (** _setup_port_needs 50-68: [init] are the requests of the system_setup_ports_initial
      methods, in order *)
  Definition port_needs (fuel : nat) (init : list (P * K)) : res st :=
    s ← mfor (csn fuel) init st_init;
    port_loop fuel s.
End ports.
Arguments sys _ _ _ {_ _ _ _}.
Arguments st _ _ _ {_ _ _ _}.

(** symmetric_update 187-244.  [psel] is a port or a list of ports; [u], [c] are
    port_update_get and port_set_get for the running element.  subset_second and
    subset_first map the pool to a function giving the keys to try; a Python list is
    not hashable, so port_update_get of a list raises TypeError (213, 218). *)
Section symm.
  Context {P K : Type} `{EqDecision P} `{Countable K}.
  Inductive psel := POne (p : P) | PMany (ps : list P).
  Global Instance psel_eq_dec : EqDecision psel.
  Proof. solve_decision. Defined.
  Definition pool (get : P -> gset K) (s : psel) : gset K :=
    match s with POne p => get p | PMany ps => ⋃ (get <$> ps) end.
  Definition psel_get (get : P -> gset K) (s : psel) : res (gset K) :=
    match s with POne p => Ok (get p) | PMany _ => Err TypeError end.

  Definition symmetric_update (u c : P -> gset K) (pfrom1 pfrom2 : option psel)
      (subset_second subset_first : option (gset K -> K -> list K)) : res (list (K * K)) :=
    match pfrom1, pfrom2 with
    | Some p1, Some p2 =>
        let full p := u p ∪ c p in
        let pool2 := pool full p2 in
        upd1 ← psel_get u p1;
        let first := k1 ← elements upd1;
                     k2 ← (match subset_second with Some f => f pool2 k1 | None => elements pool2 end);
                     [(k1, k2)] in
        let second :=
          if decide (p1 = p2) then [] else
          let pool1 := pool c p1 in
          let pool2 := pool u p2 in
          k2 ← elements pool2;
          k1 ← (match subset_first with Some f => f pool1 k2 | None => elements pool1 end);
          [(k1, k2)] in
        Ok (first ++ second)
    | _, _ => Ok []
    end.
End symm.
Arguments psel _ : clear implicits.
