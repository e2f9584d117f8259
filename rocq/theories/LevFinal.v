(** The properties of levers and strings, proved; LevProps.v lists them. *)
From Coq Require Import Reals Lra Lia.
From stdpp Require Import base tactics list numbers.
From Verif Require Import Py Fld Herm ElecModel ElecSpec ElecProofs LevModel LevSpec LevProofs LevProofs2 SigModel.

Section real.
  Local Open Scope R_scope.
  Context (dv : axis -> R) (Hn : exists i, dv i <> 0).
  Lemma len_pos : 0 < dv AxX * dv AxX + dv AxY * dv AxY + dv AxZ * dv AxZ.
  Proof using Hn.
    pose proof (Rle_0_sqr (dv AxX)). pose proof (Rle_0_sqr (dv AxY)). pose proof (Rle_0_sqr (dv AxZ)).
    destruct Hn as [i Hi]. pose proof (Rlt_0_sqr _ Hi). unfold Rsqr in *. destruct i; lra.
  Qed.
  Lemma len_sq : (cre (len3 dv) * cre (len3 dv) = dot (fun i => cre (dv i)) (fun i => cre (dv i)) :> C_fld)%F.
  Proof using Hn.
    unfold dot, cre, C_of. apply injective_projections; simpl; [|ring].
    pose proof len_pos. rewrite !Rmult_0_r, !Rminus_0_r. unfold len3. rewrite sqrt_sqrt; lra.
  Qed.
  Lemma len_n0 : cre (len3 dv) <> (0 : C_fld)%F.
  Proof using Hn. intros [= E]. pose proof len_pos as H. apply sqrt_lt_R0 in H. unfold len3 in E. lra. Qed.
  Lemma den_n0 : (cre (len3 dv) * cre (len3 dv) + (1 + 1) <> (0 : C_fld))%F.
  Proof using.
    unfold cre, C_of. intros E. apply (f_equal fst) in E. simpl in E.
    pose proof (Rle_0_sqr (len3 dv)) as H. unfold Rsqr in H. lra.
  Qed.
  Lemma two_n0 : ((1 + 1 : C_fld) <> 0)%F.
  Proof using. intros E. apply (f_equal fst) in E. simpl in E. lra. Qed.
End real.

Lemma one_n0 : (1%F : C_fld) <> 0%F.
Proof. intros [= E]. lra. Qed.
Lemma conj_cre (x : R) : h_conj C_herm (cre x) = cre x.
Proof. unfold cre, C_of. simpl. unfold C_conj. simpl. by rewrite Ropp_0. Qed.
Lemma C79_rod_lem (dv : axis -> R) (Z0 : C_fld) (w : nd port3 -> C_fld) : (exists i, dv i <> 0%R) -> Z0 <> 0%F ->
  (obeys all3 (xyz_moment_driver dv) [] w <-> rigid_rod (fun i => cre (dv i)) Z0 w).
Proof.
  intros Hn HZ. apply (lever3_gen _ _ (len_sq dv Hn) (len_n0 dv Hn) (den_n0 dv) two_n0 Z0 w HZ).
Qed.
Lemma C79_rod_lossless_lem (dv : axis -> R) (w : nd port3 -> C_fld) : (exists i, dv i <> 0%R) ->
  obeys all3 (xyz_moment_driver dv) [] w -> fsum (taken C_herm w) all3 = 0%F.
Proof.
  intros Hn. apply (lever3_lossless_gen C_herm _ _ w (len_sq dv Hn) (len_n0 dv Hn) (den_n0 dv) two_n0).
  intros i. apply conj_cre.
Qed.
Lemma C79_inertia_lem (dv : axis -> R) (Z0 s m : C_fld) (w : nd port3 -> C_fld) : (exists i, dv i <> 0%R) -> Z0 <> 0%F ->
  obeys all3 (xyz_moment_driver dv) [] w ->
  (forall i, disp w LB i = 0%F) -> (forall i, force Z0 w LA i = (- (m * (s * (s * disp w LA i))))%F) ->
  let d i := cre (dv i) in
  forall i, force Z0 w LL i = (m * (dot d d * (s * (s * disp w LL i)) - dot d (disp w LL) * (s * (s * d i))))%F.
Proof.
  intros Hn HZ H HB HA. apply (inertia_gen _ _ Z0 s m w (len_sq dv Hn) (len_n0 dv Hn) (den_n0 dv) two_n0 HZ H HB HA).
Qed.
Section strings.
  Context {K : fld}.
  Local Open Scope fld_scope.
  Add Field FL3 : (f_theory K).
  Lemma C80_line_lem (Z0 s tiny mob ph xA fA xB fB : K) :
    Z0 <> 0 -> 1 + 1 <> (0 : K) -> ph <> 0 -> s + tiny * Z0 <> 0 -> s * mob + tiny <> 0 -> s + tiny * Z0 + (s * mob + tiny) * Z0 <> 0 ->
    ((exists wA wC wB, string_obeys Z0 s tiny mob ph wA wC wB /\
        volt wA AA = xA /\ curr Z0 wA AA = fA /\ volt wB AA = xB /\ curr Z0 wB AA = fB) <->
     line_law ((s * mob + tiny) / (s + tiny * Z0)) ph xA fA xB fB).
  Proof.
    intros HZ H2 Hp H1 H3 H4.
    assert (zY1 Z0 s tiny = (s + tiny * Z0) / Z0) as E1 by (unfold zY1; by field).
    rewrite string_lem; rewrite ?E1; unfold zY2; try done.
    - assert ((s * mob + tiny) / ((s + tiny * Z0) / Z0) / Z0 = (s * mob + tiny) / (s + tiny * Z0)) as -> by (by field). done.
    - intros E. apply H1. transitivity ((s + tiny * Z0) / Z0 * Z0); [by field|]. rewrite E. ring.
    - intros E. apply H4. transitivity (((s + tiny * Z0) / Z0 + (s * mob + tiny)) * Z0); [by field|]. rewrite E. ring.
  Qed.
  Lemma C80_dc_lem (Z0 tiny mob xA fA xB fB : K) : Z0 <> 0 -> 1 + 1 <> (0 : K) -> tiny <> 0 -> 1 + Z0 <> 0 ->
    ((exists wA wC wB, string_obeys Z0 0 tiny mob 1 wA wC wB /\
        volt wA AA = xA /\ curr Z0 wA AA = fA /\ volt wB AA = xB /\ curr Z0 wB AA = fB) <->
     xA = xB /\ fA + fB = 0).
  Proof.
    intros HZ H2 Ht HZ1. assert ((1 : K) <> 0) as H1 by (intros E; apply H2; rewrite E; ring).
    assert (zY1 Z0 0 tiny = tiny) as E1 by (unfold zY1; by field).
    assert (zY2 0 tiny mob = tiny) as E2 by (unfold zY2; ring).
    rewrite string_lem; rewrite ?E1, ?E2; try done.
    - unfold line_law. assert (tiny / tiny / Z0 = 1 / Z0) as -> by (by field). split.
      + intros [A B]. split.
        * apply (eq_scale ((1 + 1) / Z0)).
          -- intros E. apply H2. transitivity ((1 + 1) / Z0 * Z0); [by field|]. rewrite E. ring.
          -- transitivity ((1 + 1) * 1 * (1 / Z0 * xA)); [by field|]. rewrite A. by field.
        * apply (eq_scale (1 + 1)); [done|]. transitivity ((1 + 1) * 1 * fA + (1 + 1) * fB); [ring|]. rewrite B. ring.
      + intros [-> E]. assert (fA = - fB) as -> by (apply fsub_0_eq; rewrite <- E; ring). split; ring.
    - intros E. apply (fmul_neq_0 _ _ H2 Ht). rewrite <- E. ring.
  Qed.
End strings.
Lemma C80_string_refuted_lem (tiny : R) : (0 < tiny)%R -> exists (s mob : C_fld) (w : nd pAB -> C_fld),
  obeys [AA; BB] (zconverter 1%F s (cre tiny) mob) [] w /\ w (I BB) = 0%F /\
  curr 1%F w AA <> (mob * (s * volt w AA))%F.
Proof.
  intros Ht. exists ((1 + 1) * ci)%F, 1%F, (fun n => match n with I AA => 1%F | O BB => 1%F | _ => 0%F end).
  split; [|split; [done|]].
  - assert (forall x : C_fld, x.1 <> 0%R -> x <> 0%F) as Hx by (intros x H E; by rewrite E in H).
    apply zconverter_lem; unfold zY1, zY2.
    + apply Hx. simpl. unfold C_inv, C_sq. simpl. lra.
    + apply Hx. simpl. lra.
    + apply Hx. simpl. unfold C_inv, C_sq. simpl. lra.
    + unfold volt. split; [apply injective_projections; simpl; lra|].
      apply injective_projections; simpl; unfold C_inv, C_sq; simpl; field.
  - unfold curr, volt. intros E. apply (f_equal fst) in E. simpl in E. unfold C_inv, C_sq in E. simpl in E. lra.
Qed.
