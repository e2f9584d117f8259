(** Concrete ODE couplings. *)
From Coq Require Import Reals Lra FunctionalExtensionality.
From stdpp Require Import base tactics list numbers gmap.
From stdpp Require Import list.
From Verif Require Import Py Fld Herm SigModel OdeModel OdeSpec OdeProofs OdeProofs2 OdeProofs3 OdeFinal.
Local Open Scope fld_scope.
Add Field FXC : (f_theory C_fld).

Definition same (n : nat) : nat := n.
Definition lin_ode : ode_spec (K := C_fld) (P := nat) (PK := nat) :=
  OdeSpec {[ 0%nat := [(1 : C_fld, [0%nat])] ]} {[ 0%nat := 0%nat ]} {[ 0%nat := Some 1%nat ]} 1 [0%nat].
Lemma lin_wf : well_formed lin_ode same.
Proof.
  split_and!.
  - unfold lin_ode, pks_grab. simpl od_dLt. rewrite map_to_list_singleton. simpl.
    apply NoDup_Permutation; [apply NoDup_singleton|apply NoDup_elements|]. intros k. rewrite elem_of_elements. set_solver.
  - intros pk Hp. simpl in Hp. apply elem_of_list_singleton in Hp as ->. simpl. split; [done|by eexists].
  - intros p q Hp Hq. simpl in *. set_solver.
  - intros p q o Hp Hq. simpl in *. set_solver.
Qed.
Lemma zero_refuted_lem : exists (c : ode_spec (K := C_fld) (P := nat) (PK := nat)) (ink : nat -> nat) ob,
  well_formed c ink /\ ode_updates c c_moved [∅] = Ok ob /\ ~ linearised c ink ob (fields_of ink ∅).
Proof.
  exists lin_ode, same, (obj_init lin_ode). split; [apply lin_wf|]. split.
  - unfold ode_updates. cbn [mfor]. rewrite (generate_still lin_ode same); [done|apply lin_wf|].
    intros pk Hp. apply c_moved_same.
  - intros Hl. destruct (Hl 0%nat 1%nat) as [_ Hd]; [simpl; set_solver|done|].
    specialize (Hd (fun _ => 1)). destruct Hd as [Hd _].
    assert (forall t, (flow lin_ode (line_at (fields_of same ∅) (fun _ => 1) t) 0%nat) = ((t + t)%R, 0%R)) as Hf.
    { intros t. unfold flow, integrate, lin_ode. cbn [od_N od_dLt od_pks Nat.iter]. unfold sweep, advance, set_at, poly_at, prod_at. cbn [foldl].
      rewrite lookup_singleton. cbn [default fsum fst snd map fprod ofnat'].
      unfold Nat.iter; cbn [nat_rect]; cbv beta. rewrite (decide_True (P := 0%nat = 0%nat)) by done. unfold Datatypes.id. cbn [fsum fst snd map fprod].
      assert (line_at (fields_of same ∅) (fun _ : nat => 1) t 0%nat = 0 + ((t, 0%R) : C_fld) * 1) as -> by (unfold line_at, fields_of; by rewrite lookup_empty).
      assert (forall u : C_fld, (0 + u * 1 + 1 / (1 + 0) * (1 * ((0 + u * 1) * 1) + 0)) = u + u) as ->.
      { intros u. field. intros [= E]. lra. }
      apply injective_projections; simpl; ring. }
    assert (derivable_pt_lim (fun t => (flow lin_ode (line_at (fields_of same ∅) (fun _ => 1) t) 0%nat).1) 0%R 2%R) as Hd2.
    { eapply (derivable_pt_lim_ext (fun t => id t + id t)%R); [intros t; rewrite Hf; done|].
      replace 2%R with (1 + 1)%R by ring. apply (derivable_pt_lim_plus id id); apply derivable_pt_lim_id. }
    pose proof (uniqueness_limite _ _ _ _ Hd Hd2) as E. revert E.
    unfold edge_of, lin_ode. cbn [od_pks fsum].
    assert (b_solution (obj_init lin_ode) !! (same 0%nat, 1%nat) = Some (1 : C_fld)) as E1.
    { unfold obj_init, lin_ode. cbn [b_solution od_in od_out]. rewrite map_to_list_singleton. simpl. done. }
    unfold lin_ode in E1. rewrite E1. cbn [default]. intros E. simpl in E. lra.
Qed.

(** da/dz = i b a, db/dz = i a a in three steps *)
Definition shg_ode : ode_spec (K := C_fld) (P := nat) (PK := nat) :=
  OdeSpec {[ 0%nat := [(ci, [1%nat; 0%nat])]; 1%nat := [(ci, [0%nat; 0%nat])] ]} {[ 0%nat := 0%nat; 1%nat := 1%nat ]} {[ 0%nat := Some 2%nat; 1%nat := Some 3%nat ]} 3 [0%nat; 1%nat].
Lemma shg_wf : well_formed shg_ode same.
Proof.
  split_and!.
  - apply NoDup_Permutation; [|apply NoDup_elements|].
    + simpl. apply NoDup_cons; split; [set_solver|apply NoDup_singleton].
    + intros k. rewrite elem_of_elements. unfold shg_ode, pks_grab. cbn [od_dLt od_pks].
      rewrite elem_of_list_to_set, elem_of_list_bind. rewrite !elem_of_cons. split.
      * intros [->|[->|[]%elem_of_nil]].
        -- exists (0%nat, [(ci, [1%nat; 0%nat])]). split; [set_solver|]. by apply elem_of_map_to_list.
        -- exists (1%nat, [(ci, [0%nat; 0%nat])]). split; [set_solver|]. by apply elem_of_map_to_list.
      * intros ([p lt] & Hk & Hm). apply elem_of_map_to_list in Hm.
        apply lookup_insert_Some in Hm as [[<- <-]|[_ Hm]]; [simpl in Hk; set_solver|].
        apply lookup_singleton_Some in Hm as [<- <-]. simpl in Hk. set_solver.
  - intros pk Hp. simpl in Hp. rewrite !elem_of_cons in Hp. destruct Hp as [->|[->|[]%elem_of_nil]]; (split; [done|by eexists]).
  - done.
  - intros p q o Hp Hq. simpl in Hp, Hq. rewrite !elem_of_cons in Hp, Hq.
    destruct Hp as [->|[->|[]%elem_of_nil]], Hq as [->|[->|[]%elem_of_nil]]; try done; intros E1 E2; vm_compute in E1, E2; congruence.
Qed.
Lemma ode_meets_lem : exists (c : ode_spec (K := C_fld) (P := nat) (PK := nat)) (ink : nat -> nat) (sv : gmap nat C_fld),
  well_formed c ink /\ (length (od_pks c) = 2)%nat /\
  exists pk o, pk ∈ od_pks c /\ od_out c !! pk = Some (Some o) /\ c_moved (fields_of ink sv pk) (fields_of ink (b_prev (obj_init c)) pk) = true.
Proof.
  exists shg_ode, same, {[ 0%nat := 1 ]}. split; [apply shg_wf|]. split; [done|].
  exists 0%nat, 2%nat. split; [simpl; set_solver|]. split; [done|].
  unfold fields_of. unfold same. rewrite lookup_singleton. unfold obj_init. cbn [b_prev]. rewrite lookup_empty. cbn [default].
  destruct (c_moved 1 0) eqn:E; [done|]. apply c_moved_0 in E. exfalso. by apply (f1_neq_0 (K := C_fld)).
Qed.
