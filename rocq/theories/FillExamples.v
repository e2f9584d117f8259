(** Concrete runs. *)
From stdpp Require Import base tactics numbers gmap fin_sets sets relations list.
From Coq Require Import Reals Lra.
From Verif Require Import Fld Py Herm PortModel PortSpec PortProofs PdModel PdSpec FillModel FillSpec FillProofs3 FillProofs5.

(** a modulator (0) and another element (1) which passes keys on from its port 6 to its port 7; they form a ring *)
Definition ring_sys (A : Type) `{Countable A} (rej : Z -> bool) : sys N N (key A Z) := {|
  owner p := if decide (p < 6)%N then Some 0%N else if decide (p < 8)%N then Some 1%N else None;
  vowners _ := ∅;
  oports e := if decide (e = 0)%N then [0; 1; 2; 3; 4; 5]%N else if decide (e = 1)%N then [6; 7]%N else [];
  vports _ := [];
  bonds := [(6, 0); (3, 7)]%N;
  rule e := if decide (e = 0)%N then Some (as_rule (mod_ports Z.add Z.opp rej 0%N 1%N 2%N 3%N 4%N 5%N))
            else if decide (e = 1)%N then Some (fun _ u c => k ← elements (u 6%N); [(7%N, k)]) else None;
|}.
Definition lone_pd (rej : Z -> bool) : sys N N (key unit Z) := {|
  owner p := if decide (p < 3)%N then Some 0%N else None;
  vowners _ := ∅;
  oports e := if decide (e = 0)%N then [0; 1; 2]%N else [];
  vports _ := [];
  bonds := [];
  rule e := if decide (e = 0)%N then Some (as_rule (pd_ports Z.add Z.opp rej 0%N 1%N 2%N)) else None;
|}.
Definition pop_max (d : N) (_ : nat) (X : gset N) : N := default d (last (elements X)).
Lemma pop_max_in d : pops (pop_max d).
Proof.
  intros t X HX. unfold pop_max. destruct (last (elements X)) as [a|] eqn:E; cbn.
  - apply elem_of_elements. apply last_Some in E as [l ->]. apply elem_of_app. right. left.
  - apply last_None, elements_empty_inv in E. set_solver.
Qed.
Lemma ring_placed A `{Countable A} rej : placed (ring_sys A rej) 0%N [0; 1; 2; 3; 4; 5]%N (mod_ports Z.add Z.opp rej 0%N 1%N 2%N 3%N 4%N 5%N).
Proof.
  split.
  - split.
    + intros e p. cbn [oports owner ring_sys]. repeat destruct (decide _); subst; rewrite ?elem_of_cons; split; intros Hx;
        try (by apply elem_of_nil in Hx); try done; try congruence; destruct_or?; try (by apply elem_of_nil in Hx); subst; try lia; try done; exfalso;
        match goal with H : context [_ ∈ []] |- _ => idtac | _ => idtac end; try congruence.
      all: try (destruct_or! Hx; try lia; by apply elem_of_nil in Hx).
    + intros e p. cbn. split; [intros Hx; by apply elem_of_nil in Hx|set_solver].
    + intros p e. cbn. set_solver.
    + intros p e _. cbn. set_solver.
    + intros e. cbn. repeat destruct (decide _); by apply (bool_decide_unpack _).
  - reflexivity.
  - intros p Hp. ind Hp; reflexivity.
  - reflexivity.
  - by apply (bool_decide_unpack _).
Qed.
Lemma lone_placed rej : placed (lone_pd rej) 0%N [0; 1; 2]%N (pd_ports Z.add Z.opp rej 0%N 1%N 2%N).
Proof.
  split.
  - split.
    + intros e p. cbn [oports owner lone_pd]. repeat destruct (decide _); subst; rewrite ?elem_of_cons; split; intros Hx;
        try (by apply elem_of_nil in Hx); try done; try congruence; try lia; try (destruct_or! Hx; try lia; by apply elem_of_nil in Hx).
    + intros e p. cbn. split; [intros Hx; by apply elem_of_nil in Hx|set_solver].
    + intros p e. cbn. set_solver.
    + intros p e _. cbn. set_solver.
    + intros e. cbn. repeat destruct (decide _); by apply (bool_decide_unpack _).
  - reflexivity.
  - intros p Hp. ind Hp; reflexivity.
  - reflexivity.
  - by apply (bool_decide_unpack _).
Qed.

Notation upto n := (fun F => bool_decide (n < Z.abs F)%Z).
Lemma Z_frequencies : frequencies Z.add Z.opp 0%Z IZR.
Proof. split; intros; try lia. apply plus_IZR. Qed.
Definition keys_bounded {A} `{Countable A} (n : Z) (ports : list N) (s : st N N (key A Z)) : bool :=
  forallb (fun p => forallb (fun k : key A Z => negb (bool_decide (n < Z.abs k.2)%Z)) (elements (cplgs s p))) ports.
Lemma keys_bounded_ok {A} `{Countable A} (n : Z) (ports : list N) (s : st N N (key A Z)) : (0 <= n)%Z ->
  keys_bounded n ports s = true -> bounded Z.opp 0%Z (upto n) (cplgs s) ports.
Proof.
  intros Hn Hb. split.
  - apply bool_decide_eq_false. lia.
  - intros F HF. apply bool_decide_eq_false. apply bool_decide_eq_false in HF. lia.
  - intros p k Hp Hk. unfold keys_bounded in Hb. rewrite forallb_forall in Hb. specialize (Hb p ltac:(by apply elem_of_list_In)).
    rewrite forallb_forall in Hb. specialize (Hb k). apply negb_true_iff, Hb, elem_of_list_In, elem_of_elements, Hk.
Qed.
Lemma order_run : exists (S : sys N N (key bool Z)) init popE popE' popP fuel s s',
  placed S 0%N [0; 1; 2; 3; 4; 5]%N (mod_ports Z.add Z.opp (fun F => bool_decide (1 < Z.abs F)%Z) 0%N 1%N 2%N 3%N 4%N 5%N) /\
  pops popE /\ pops popE' /\ pops popP /\
  port_needs S popE popP fuel init = Ok s /\ port_needs S popE' popP fuel init = Ok s' /\
  cls 1%Z ∈ cplgs s 4%N /\ cls 1%Z ∉ cplgs s' 4%N.
Proof.
  set (init := [(0%N, opt true false 0%Z); (0%N, opt false false 0%Z); (0%N, opt true true 1%Z); (0%N, opt false true 1%Z)]).
  assert (match port_needs (ring_sys bool (upto 1%Z)) (pop_min 0%N) (pop_min 0%N) 100 init with Ok s => bool_decide (cls 1%Z ∈ cplgs s 4%N) | Err _ => false end = true) as E1 by (vm_compute; reflexivity).
  assert (match port_needs (ring_sys bool (upto 1%Z)) (pop_max 0%N) (pop_min 0%N) 100 init with Ok s => bool_decide (cls 1%Z ∉ cplgs s 4%N) | Err _ => false end = true) as E2 by (vm_compute; reflexivity).
  destruct (port_needs (ring_sys bool (upto 1%Z)) (pop_min 0%N) (pop_min 0%N) 100 init) as [s|] eqn:Es; [|discriminate E1].
  destruct (port_needs (ring_sys bool (upto 1%Z)) (pop_max 0%N) (pop_min 0%N) 100 init) as [s'|] eqn:Es'; [|discriminate E2].
  exists (ring_sys bool (upto 1%Z)), init, (pop_min 0%N), (pop_max 0%N), (pop_min 0%N), 100, s, s'.
  split; [apply ring_placed|]. split; [intros t X; apply pop_min_in|]. split; [apply pop_max_in|]. split; [intros t X; apply pop_min_in|].
  split; [exact Es|]. split; [exact Es'|]. split; [exact (bool_decide_eq_true_1 _ E1)|exact (bool_decide_eq_true_1 _ E2)].
Qed.
Lemma mod_run : exists (S : sys N N (key unit Z)) init popE popP fuel s,
  frequencies Z.add Z.opp 0%Z IZR /\
  placed S 0%N [0; 1; 2; 3; 4; 5]%N (mod_ports Z.add Z.opp (fun F => bool_decide (2 < Z.abs F)%Z) 0%N 1%N 2%N 3%N 4%N 5%N) /\
  pops popE /\ pops popP /\ port_needs S popE popP fuel init = Ok s /\
  bounded Z.opp 0%Z (fun F => bool_decide (2 < Z.abs F)%Z) (cplgs s) [0; 1; 2; 3; 4; 5]%N /\
  carrier_at 0%Z (cplgs s) 0%N /\ opt true () 1%Z ∈ cplgs s 3%N /\ cls (-1)%Z ∈ cplgs s 4%N.
Proof.
  set (init := [(0%N, opt true () 0%Z); (0%N, opt false () 0%Z); (4%N, cls 1%Z)]).
  assert (match port_needs (ring_sys unit (upto 2%Z)) (pop_min 0%N) (pop_min 0%N) 100 init with
    | Ok s => keys_bounded 2 [0; 1; 2; 3; 4; 5]%N s && bool_decide (opt true () 0%Z ∈ cplgs s 0%N) && bool_decide (opt false () 0%Z ∈ cplgs s 0%N) &&
        bool_decide (opt true () 1%Z ∈ cplgs s 3%N) && bool_decide (cls (-1)%Z ∈ cplgs s 4%N)
    | Err _ => false end = true) as E1 by (vm_compute; reflexivity).
  destruct (port_needs (ring_sys unit (upto 2%Z)) (pop_min 0%N) (pop_min 0%N) 100 init) as [s|] eqn:Es; [|discriminate E1].
  rewrite !andb_true_iff, !bool_decide_eq_true in E1. destruct E1 as ((((E1 & E2) & E3) & E4) & E5).
  exists (ring_sys unit (upto 2%Z)), init, (pop_min 0%N), (pop_min 0%N), 100, s.
  split; [apply Z_frequencies|]. split; [apply ring_placed|]. split; [intros t X; apply pop_min_in|]. split; [intros t X; apply pop_min_in|].
  split; [exact Es|]. split; [apply keys_bounded_ok; [lia|exact E1]|]. split; [exists tt; split; [exact E2|exact E3]|]. split; [exact E4|exact E5].
Qed.
Lemma pd_run : exists (S : sys N N (key unit Z)) init popE popP fuel s,
  placed S 0%N [0; 1; 2]%N (pd_ports Z.add Z.opp (fun F => bool_decide (2 < Z.abs F)%Z) 0%N 1%N 2%N) /\
  pops popE /\ pops popP /\ port_needs S popE popP fuel init = Ok s /\
  bounded Z.opp 0%Z (fun F => bool_decide (2 < Z.abs F)%Z) (cplgs s) [0; 1; 2]%N /\ cplgs s 1%N = ∅ /\
  carrier_at 0%Z (cplgs s) 0%N /\ cls (-1)%Z ∈ cplgs s 2%N.
Proof.
  set (init := [(0%N, opt true () 0%Z); (0%N, opt false () 0%Z); (0%N, opt true () 1%Z)]).
  assert (match port_needs (lone_pd (upto 2%Z)) (pop_min 0%N) (pop_min 0%N) 100 init with
    | Ok s => keys_bounded 2 [0; 1; 2]%N s && bool_decide (cplgs s 1%N = ∅) && bool_decide (opt true () 0%Z ∈ cplgs s 0%N) && bool_decide (opt false () 0%Z ∈ cplgs s 0%N) &&
        bool_decide (cls (-1)%Z ∈ cplgs s 2%N)
    | Err _ => false end = true) as E1 by (vm_compute; reflexivity).
  destruct (port_needs (lone_pd (upto 2%Z)) (pop_min 0%N) (pop_min 0%N) 100 init) as [s|] eqn:Es; [|discriminate E1].
  rewrite !andb_true_iff, !bool_decide_eq_true in E1. destruct E1 as ((((E1 & E2) & E3) & E4) & E5).
  exists (lone_pd (upto 2%Z)), init, (pop_min 0%N), (pop_min 0%N), 100, s.
  split; [apply lone_placed|]. split; [intros t X; apply pop_min_in|]. split; [intros t X; apply pop_min_in|].
  split; [exact Es|]. split; [apply keys_bounded_ok; [lia|exact E1]|]. split; [exact E2|]. split; [exists tt; split; [exact E3|exact E4]|]. exact E5.
Qed.

(** what the elements of the ring want *)
Definition ring_demand (rej : Z -> bool) : @demand N N (key unit Z) := fun e X p k =>
  if decide (e = 0)%N then mod_asks Z.add Z.opp rej 0%N 1%N 2%N 3%N 4%N 5%N X p k else
  if decide (e = 1)%N then p = 7%N /\ X 6%N k else False.
Lemma ring_order_ok (rej : Z -> bool) :
  demand_ok (ring_sys unit rej) (ring_demand rej) /\
  (forall e, exhaustive (ring_sys unit rej) (ring_demand rej) e \/ (incremental (ring_sys unit rej) (ring_demand rej) e /\ no_virtual_request (ring_sys unit rej) (ring_demand rej) e) \/
     exists fri fro bki bko drv ba, placed (ring_sys unit rej) e [fri; fro; bki; bko; drv; ba] (mod_ports Z.add Z.opp rej fri fro bki bko drv ba) /\
       forall X p k, ring_demand rej e X p k <-> mod_asks Z.add Z.opp rej fri fro bki bko drv ba X p k).
Proof.
  assert (forall (X Y : N -> key unit Z -> Prop) p k, (forall q j, q ∈ [0; 1; 2; 3; 4; 5]%N -> X q j -> Y q j) ->
    mod_asks Z.add Z.opp rej 0%N 1%N 2%N 3%N 4%N 5%N X p k -> mod_asks Z.add Z.opp rej 0%N 1%N 2%N 3%N 4%N 5%N Y p k) as Gm.
  { intros X Y p k HXY [HW|[(p0 & Hp0 & Hp & HX)|(i & l & o & f & F & Hi & HX & HX' & Hr & Hpk)]].
    - left. eapply (fw_local _ _ _ _ _ _ _ _ X Y [0; 1; 2; 3; 4; 5]%N); [| | | | |exact HXY|exact HW].
      + intros i Hi. ind Hi; inl.
      + intros i Hi. ind Hi; inl.
      + intros i q _ Hq%pmap2_in. ind Hq; inl.
      + intros q [= <-]. inl.
      + intros q [= <-]. inl.
    - right. left. exists p0. split; [exact Hp0|]. split; [exact Hp|]. apply HXY; [|exact HX]. ind Hp0; inl.
    - right. right. exists i, l, o, f, F. split; [exact Hi|]. split; [apply HXY; [ind Hi; inl|exact HX]|]. split; [apply HXY; [inl|exact HX']|]. split; [exact Hr|exact Hpk]. }
  split.
  - split.
    + intros e X Y p k HXY. unfold ring_demand. destruct (decide (e = 0%N)); [apply Gm; intros q j _; apply HXY|].
      destruct (decide (e = 1%N)); [|by intros ?]. intros [Hp HX]. split; [exact Hp|apply HXY, HX].
    + intros e X p k. unfold ring_demand. destruct (decide (e = 0%N)) as [->|].
      * apply Gm. intros q j Hq HX. split; [|exact HX]. left. ind Hq; reflexivity.
      * destruct (decide (e = 1%N)) as [->|]; [|by intros ?]. intros [Hp HX]. split; [exact Hp|]. split; [left; reflexivity|exact HX].
    + intros e X p k. unfold ring_demand. destruct (decide (e = 0%N)).
      * intros [HW|[(p0 & _ & _ & HX)|(i & l & o & f & F & _ & HX & _)]]; [by eapply fw_strict|eauto|eauto].
      * destruct (decide (e = 1%N)); [|done]. intros [_ HX]. eauto.
  - intros e. destruct (decide (e = 0%N)) as [->|He0].
    { right. right. exists 0%N, 1%N, 2%N, 3%N, 4%N, 5%N. split; [apply ring_placed|]. intros X p k. unfold ring_demand. rewrite decide_True by reflexivity. reflexivity. }
    right. left. split; [|intros X p k q _ _; cbn; apply not_elem_of_empty].
    intros r Hr t u c _. cbn [rule ring_sys] in Hr. rewrite decide_False in Hr by exact He0.
    destruct (decide (e = 1%N)) as [He1|]; [|discriminate Hr]. injection Hr as <-.
    assert (forall X p k, ring_demand rej e X p k <-> p = 7%N /\ X 6%N k) as HD.
    { intros X p k. unfold ring_demand. rewrite decide_False by exact He0. rewrite decide_True by exact He1. reflexivity. }
    split.
    + intros p k Hx. apply HD. apply elem_of_list_bind in Hx as (k' & Hx & Hk). apply elem_of_list_singleton in Hx. injection Hx as -> ->. split; [reflexivity|].
      left. by apply elem_of_elements.
    + intros p k [-> HX]%HD. destruct (decide (k ∈ u 6%N)) as [Hk|Hk]; [left|right].
      * apply elem_of_list_bind. exists k. split; [left|by apply elem_of_elements].
      * apply HD. split; [reflexivity|]. split; [destruct HX; [contradiction|assumption]|assumption].
Qed.
