(** C90.  Selectors and selection stacks (phasor/optics/selectors.py and selective_mirrors.py).
    Vocabulary in SelSpec.v, SigSpec.v and InjSpec.v. *)
From stdpp Require Import base tactics numbers gmap list fin_maps.
From Verif Require Import Fld Py Herm InjModel InjSpec OptModel SigModel SigSpec SelModel SelSpec SelProofs SelFinal SelFinal2.
Local Open Scope fld_scope.

(** a selector can be set up exactly if each key in front shares an entry with just one selection; else an assertion fails *)
Theorem C90_accepts {P A V} `{Countable P} `{Countable A} `{Countable V} (fr_i fr_o : P) (bs : list (back (P := P) (A := A) (V := V))) have : NoDup bs ->
  ((exists r, selector true fr_i fr_o bs have = Ok r) <-> (forall k, k ∈ have fr_i -> exists b, selected bs k b)) /\
  ((exists k, k ∈ have fr_i /\ ~ exists b, selected bs k b) -> selector true fr_i fr_o bs have = Err AssertionError).
Proof. exact (C90_accepts_lem fr_i fr_o bs have). Qed.
Print Assumptions C90_accepts.
Example C90_accepts_case : exists r, selector true 0%nat 1%nat ex_bs ex_have = Ok r.
Proof. eexists. exact ex_sel. Qed.

(** each back port gets the light of the front that its selection is for *)
Theorem C90_splits {P A V} `{Countable P} `{Countable A} `{Countable V} (fr_i fr_o : P) (bs : list (back (P := P) (A := A) (V := V))) have r x b k :
  distinct fr_i fr_o bs -> within have x -> selector true fr_i fr_o bs have = Ok r -> b ∈ bs ->
  arrives r x (b_o b, k) = part_for (b_key b) (fun k => x (fr_i, k)) k.
Proof. exact (C90_splits_lem fr_i fr_o bs have r x b k). Qed.
Print Assumptions C90_splits.
(** the front gets all the light that enters at the back *)
Theorem C90_merges {P A V} `{Countable P} `{Countable A} `{Countable V} (fr_i fr_o : P) (bs : list (back (P := P) (A := A) (V := V))) have r x k :
  distinct fr_i fr_o bs -> within have x -> selector true fr_i fr_o bs have = Ok r ->
  arrives r x (fr_o, k) = fsum (fun b => x (b_i b, k)) bs.
Proof. exact (C90_merges_lem fr_i fr_o bs have r x k). Qed.
Print Assumptions C90_merges.
(** no light is lost or doubled on the way to the back, and none goes elsewhere *)
Theorem C90_complete {P A V} `{Countable P} `{Countable A} `{Countable V} (fr_i fr_o : P) (bs : list (back (P := P) (A := A) (V := V))) have r x k :
  distinct fr_i fr_o bs -> within have x -> selector true fr_i fr_o bs have = Ok r ->
  fsum (fun b => arrives r x (b_o b, k)) bs = x (fr_i, k).
Proof. exact (C90_complete_lem fr_i fr_o bs have r x k). Qed.
Print Assumptions C90_complete.
Theorem C90_nowhere {P A V} `{Countable P} `{Countable A} `{Countable V} (fr_i fr_o : P) (bs : list (back (P := P) (A := A) (V := V))) have r x p k :
  NoDup bs -> within have x -> selector true fr_i fr_o bs have = Ok r -> p <> fr_o -> (forall b, b ∈ bs -> b_o b <> p) -> arrives r x (p, k) = 0.
Proof. exact (C90_nowhere_lem fr_i fr_o bs have r x p k). Qed.
Print Assumptions C90_nowhere.
Example C90_splits_case : arrives ex_r ex_x (5%nat, ex_key 1 1) = 1 /\ arrives ex_r ex_x (3%nat, ex_key 1 1) = 0 /\ arrives ex_r ex_x (0%nat, ex_key 1 1) = 0.
Proof.
  split; [|split].
  - exact (C90_splits 0%nat 1%nat ex_bs ex_have ex_r ex_x (Back 4%nat 5%nat {[7%nat := 1%nat]}) (ex_key 1 1) ex_distinct ex_within ex_sel ltac:(right; left)).
  - exact (C90_splits 0%nat 1%nat ex_bs ex_have ex_r ex_x (Back 2%nat 3%nat {[7%nat := 0%nat]}) (ex_key 1 1) ex_distinct ex_within ex_sel ltac:(left)).
  - apply (C90_nowhere 0%nat 1%nat ex_bs ex_have); [exact (distinct_nodup _ _ _ ex_distinct)|exact ex_within|exact ex_sel|done|].
    intros b Hb. repeat (apply elem_of_cons in Hb as [->|Hb]); [done|done|by apply elem_of_nil in Hb].
Qed.
Example C90_merges_case : arrives ex_r ex_x (1%nat, ex_key 1 1) = fsum (fun b => ex_x (b_i b, ex_key 1 1)) ex_bs /\ fsum (fun b => arrives ex_r ex_x (b_o b, ex_key 1 1)) ex_bs = 1.
Proof. split; [exact (C90_merges _ _ _ _ _ _ _ ex_distinct ex_within ex_sel)|exact (C90_complete _ _ _ _ _ _ (ex_key 1 1) ex_distinct ex_within ex_sel)]. Qed.

(** with the check switched off the first of the matching selections takes the light *)
Theorem C90_unchecked {P A V} `{Countable P} `{Countable A} `{Countable V} (fr_i fr_o : P) (bs1 bs2 : list (back (P := P) (A := A) (V := V))) b have r x k :
  distinct fr_i fr_o (bs1 ++ b :: bs2) -> within have x -> selector false fr_i fr_o (bs1 ++ b :: bs2) have = Ok r ->
  shares (b_key b) k -> (forall b', b' ∈ bs1 -> ~ shares (b_key b') k) ->
  arrives r x (b_o b, k) = x (fr_i, k) /\ forall b', b' ∈ bs1 ++ bs2 -> arrives r x (b_o b', k) = 0.
Proof. exact (C90_unchecked_lem fr_i fr_o bs1 bs2 b have r x k). Qed.
Print Assumptions C90_unchecked.
Example C90_unchecked_case : exists r, selector false 0%nat 1%nat ([] ++ Back 2 3 (ex_key 0 0) :: [Back 4 5 (ex_key 0 1)])%nat (fun p : nat => match p with O => [ex_key 0 0] | _ => [] end) = Ok r.
Proof. eexists. vm_compute. reflexivity. Qed.

(** selecting by the values of one entry, as the polarizing and harmonic elements do: a key goes to the
    port for its value of the entry *)
Theorem C90_by_entry {P A V} `{Countable P} `{Countable A} `{Countable V} (e : A) (l : list ((P * P) * V)) (k : gmap A V) b : NoDup l.*2 ->
  selected (by_entry e l) k b <-> exists i o v, ((i, o), v) ∈ l /\ b = Back i o {[e := v]} /\ k !! e = Some v.
Proof. exact (C90_by_entry_lem e l k b). Qed.
Print Assumptions C90_by_entry.
Example C90_by_entry_case : selected ex_bs (ex_key 1 1) (Back 4%nat 5%nat {[7%nat := 1%nat]}).
Proof. apply C90_by_entry; [apply (bool_decide_unpack _); vm_compute; exact Logic.I|]. exists 4%nat, 5%nat, 1%nat. split; [right; left|done]. Qed.

(** selecting by several entries: a port whose selection is contained in the key, and is the only such, does
    not get the light; the set-up fails *)
Theorem C90_entries_refuted : exists (bs : list (back (P := nat) (A := nat) (V := nat))) b k,
  b ∈ bs /\ b_key b ⊆ k /\ (forall b', b' ∈ bs -> b_key b' ⊆ k -> b' = b) /\
  forall fr_i fr_o have, k ∈ have fr_i -> selector true fr_i fr_o bs have = Err AssertionError.
Proof. exact C90_entries_refuted_lem. Qed.
Print Assumptions C90_entries_refuted.

(** the keys a selector asks for *)
Theorem C90_requests {P A V} `{Countable P} `{Countable A} `{Countable V} (fr_i fr_o : P) (bs : list (back (P := P) (A := A) (V := V))) up r p k :
  NoDup bs -> selector_ports true fr_i fr_o bs up = Ok r ->
  (p, k) ∈ r <->
  (k ∈ up fr_i /\ exists b, selected bs k b /\ p = b_o b) \/ (p = fr_o /\ exists b, b ∈ bs /\ k ∈ up (b_i b)) \/
  (k ∈ up fr_o /\ exists b, b ∈ bs /\ shares (b_key b) k /\ p = b_i b) \/ (p = fr_i /\ exists b, b ∈ bs /\ k ∈ up (b_o b)).
Proof. exact (C90_requests_lem fr_i fr_o bs up r p k). Qed.
Print Assumptions C90_requests.
(** once they are there, no coupling ends at a key that is not *)
Theorem C90_closed {P A V} `{Countable P} `{Countable A} `{Countable V} (fr_i fr_o : P) (bs : list (back (P := P) (A := A) (V := V))) have r c :
  selector_ports true fr_i fr_o bs have = Ok r -> (forall p k, (p, k) ∈ r -> k ∈ have p) -> selector true fr_i fr_o bs have = Ok c ->
  forall j, j ∈ c -> (target j).2 ∈ have (target j).1.
Proof. exact (C90_closed_lem fr_i fr_o bs have r c). Qed.
Print Assumptions C90_closed.
Example C90_closed_case : exists r, selector_ports true 0%nat 1%nat ex_bs ex_have = Ok r /\ Forall (fun n => n.2 ∈ ex_have n.1) r.
Proof. exact ex_closed. Qed.

(** the polarization selector: set-up, way to the back *)
Theorem C90_pol_accepts {P A V} `{Countable P} `{Countable A} `{Countable V} (fr_i fr_o : P) (bP bS : back (P := P) (A := A) (V := V)) have :
  ((exists r, pol_selector fr_i fr_o bP bS have = Ok r) <-> (forall k, k ∈ have fr_i -> shares (b_key bP) k \/ shares (b_key bS) k)) /\
  ((exists k, k ∈ have fr_i /\ ~ shares (b_key bP) k /\ ~ shares (b_key bS) k) -> pol_selector fr_i fr_o bP bS have = Err AssertionError).
Proof. exact (C90_pol_accepts_lem fr_i fr_o bP bS have). Qed.
Print Assumptions C90_pol_accepts.
Theorem C90_pol_splits {P A V} `{Countable P} `{Countable A} `{Countable V} (fr_i fr_o : P) (bP bS : back (P := P) (A := A) (V := V)) have r x b k :
  distinct fr_i fr_o [bP; bS] -> within have x -> (forall k, k ∈ have fr_i -> ~ (shares (b_key bP) k /\ shares (b_key bS) k)) ->
  pol_selector fr_i fr_o bP bS have = Ok r -> b ∈ [bP; bS] -> arrives r x (b_o b, k) = part_for (b_key b) (fun k => x (fr_i, k)) k.
Proof. exact (C90_pol_splits_lem fr_i fr_o bP bS have r x b k). Qed.
Print Assumptions C90_pol_splits.
(** on the way back the light of the P port is passed, twice for keys that the S port has too *)
Theorem C90_pol_returns {P A V} `{Countable P} `{Countable A} `{Countable V} (fr_i fr_o : P) (bP bS : back (P := P) (A := A) (V := V)) have r x k :
  distinct fr_i fr_o [bP; bS] -> within have x -> pol_selector fr_i fr_o bP bS have = Ok r ->
  arrives r x (fr_o, k) = x (b_i bP, k) + (if decide (k ∈ have (b_i bS)) then x (b_i bP, k) else 0).
Proof. exact (C90_pol_returns_lem fr_i fr_o bP bS have r x k). Qed.
Print Assumptions C90_pol_returns.
Example C90_pol_case : exists r, pol_selector 0%nat 1%nat ex_P ex_S ex_have = Ok r.
Proof. exact ex_pol. Qed.
(** the keys it asks for, and that all its couplings end at keys that are there *)
Theorem C90_pol_requests {P A V} `{Countable P} `{Countable A} `{Countable V} (fr_i fr_o : P) (bP bS : back (P := P) (A := A) (V := V)) up r p k :
  pol_ports fr_i fr_o bP bS up = Ok r -> (forall k, ~ (shares (b_key bP) k /\ shares (b_key bS) k)) ->
  (p, k) ∈ r <->
  exists b, b ∈ [bP; bS] /\ ((k ∈ up fr_i /\ shares (b_key b) k /\ p = b_o b) \/ (p = fr_o /\ k ∈ up (b_i b)) \/
    (k ∈ up fr_o /\ shares (b_key b) k /\ p = b_i b) \/ (p = fr_i /\ k ∈ up (b_o b))).
Proof. exact (C90_pol_requests_lem fr_i fr_o bP bS up r p k). Qed.
Print Assumptions C90_pol_requests.
Theorem C90_pol_closed {P A V} `{Countable P} `{Countable A} `{Countable V} (fr_i fr_o : P) (bP bS : back (P := P) (A := A) (V := V)) have r c :
  pol_ports fr_i fr_o bP bS have = Ok r -> (forall p k, (p, k) ∈ r -> k ∈ have p) -> pol_selector fr_i fr_o bP bS have = Ok c ->
  forall j, j ∈ c -> (target j).2 ∈ have (target j).1.
Proof. exact (C90_pol_closed_lem fr_i fr_o bP bS have r c). Qed.
Print Assumptions C90_pol_closed.
Example C90_pol_closed_case : exists r, pol_ports 0%nat 1%nat ex_P ex_S ex_have = Ok r /\ Forall (fun n => n.2 ∈ ex_have n.1) r.
Proof. exact ex_pol_closed. Qed.
(** and the light of the S port is lost *)
Theorem C90_return_refuted : exists (bP bS : back (P := nat) (A := nat) (V := nat)) have x r k,
  distinct 0%nat 1%nat [bP; bS] /\ within have x /\ pol_selector 0%nat 1%nat bP bS have = Ok r /\ shares (b_key bS) k /\
  x (b_i bS, k) <> 0 /\ x (b_i bP, k) = 0 /\ arrives r x (1%nat, k) = 0.
Proof. exact C90_return_refuted_lem. Qed.
Print Assumptions C90_return_refuted.

(** a stack shows, summed, what its elements make of the light they are selected for *)
Theorem C90_stack {E N A V} `{Countable E} `{Countable N} `{Countable A} `{Countable V} (bk : list (E * gmap A V)) (ports : list N) have el fin fout ein eout q k :
  NoDup bk.*1 -> stacked true bk ports have el fin fout ein eout -> q ∈ ports ->
  fout q k = fsum (fun es => el es.1 (fun p => part_for es.2 (fin p)) q k) bk.
Proof. exact (C90_stack_lem bk ports have el fin fout ein eout q k). Qed.
Print Assumptions C90_stack.
(** if they keep the keys apart it acts, key by key, as the one element selected *)
Theorem C90_stack_one {E N A V} `{Countable E} `{Countable N} `{Countable A} `{Countable V} (bk : list (E * gmap A V)) (ports : list N) have el fin fout ein eout q k e s :
  NoDup bk.*1 -> stacked true bk ports have el fin fout ein eout -> q ∈ ports ->
  (forall e f g p, (forall p, f p k = g p k) -> el e f p k = el e g p k) -> (forall e p, el e (fun _ _ => 0) p k = 0) ->
  (e, s) ∈ bk -> shares s k -> (forall e' s', (e', s') ∈ bk -> shares s' k -> e' = e) -> fout q k = el e fin q k.
Proof. exact (C90_stack_one_lem bk ports have el fin fout ein eout q k e s). Qed.
Print Assumptions C90_stack_one.
Example C90_stack_case : stacked true ex_bk [0%nat] (fun _ => ex_ks) ex_el ex_fin ex_fout ex_ein ex_eout.
Proof. exact ex_stacked. Qed.

(** a stack is built exactly if all its elements have the same ports and a selection; it then joins each
    port of each element *)
Theorem C90_build {E N A V} `{Countable E} `{Countable N} `{Countable A} `{Countable V} (els : list (E * list N)) (sel : gmap E (gmap A V)) :
  (exists r, stack_build els sel None = Ok r) <->
  (forall p e ps e' ps', (e, ps) ∈ els -> (e', ps') ∈ els -> p ∈ ps -> p ∈ ps' /\ is_Some (sel !! e')).
Proof. exact (C90_build_lem els sel). Qed.
Print Assumptions C90_build.
Theorem C90_bonds {E N A V} `{Countable E} `{Countable N} `{Countable A} `{Countable V} (els : list (E * list N)) (sel : gmap E (gmap A V)) r p e :
  stack_build els sel None = Ok r -> (p, e) ∈ r <-> exists ps, (e, ps) ∈ els /\ p ∈ ps.
Proof. exact (C90_bonds_lem els sel r p e). Qed.
Print Assumptions C90_bonds.
Example C90_build_case : exists r, stack_build [(0, [0; 1]); (1, [1; 0])]%nat (list_to_map ex_bk) None = Ok r /\ (1, 0)%nat ∈ r.
Proof. eexists. split; [vm_compute; reflexivity|]. apply (bool_decide_unpack _); vm_compute; exact Logic.I. Qed.
(** the check that the elements have the same ports never fails, whatever their ports *)
Theorem C90_check_refuted {E N A V} `{Countable E} `{Countable N} `{Countable A} `{Countable V} (els : list (E * list N)) (sel : gmap E (gmap A V)) ps :
  stack_build els sel ps <> Err AssertionError.
Proof. exact (C90_check_refuted_lem els sel ps). Qed.
Print Assumptions C90_check_refuted.
Example C90_check_case : stack_build [(0, [0; 1]); (1, [0])]%nat (list_to_map ex_bk) None = Err AttributeError.
Proof. vm_compute. reflexivity. Qed.
