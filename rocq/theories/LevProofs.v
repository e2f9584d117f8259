(** Proofs about levers and strings. *)
From stdpp Require Import base tactics list numbers.
From Verif Require Import Py Fld Herm ElecModel ElecSpec ElecProofs LevModel LevSpec.

Section proofs.
  Context {K : fld}.
  Local Open Scope fld_scope.
  Add Field FL : (f_theory K).
  Notation two := (1 + 1 : K).

  (** what [inject] emits *)
  Lemma emits_app {P} `{EqDecision P} (a b : list (edge P)) (w : nd P -> K) t :
    emits (a ++ b) [] w t = emits a [] w t + emits b [] w t.
  Proof. unfold emits. rewrite fsum_app. simpl. ring. Qed.
  Lemma emits_nil {P} `{EqDecision P} (w : nd P -> K) t : emits [] [] w t = 0.
  Proof. unfold emits. simpl. ring. Qed.
  Lemma emits_one {P} `{EqDecision P} (p q t : P) (g : K) (w : nd P -> K) :
    emits (if decide (g = 0) then [] else [(I p, O q, g)]) [] w (O t) = if decide (q = t) then g * w (I p) else 0.
  Proof.
    unfold emits. destruct (decide (g = 0)) as [->|_]; simpl.
    - destruct (decide _); ring.
    - destruct (decide (q = t)) as [->|Hn].
      + rewrite (decide_True (P := O t = O t)) by done. ring.
      + rewrite (decide_False (P := O q = O t)) by congruence. ring.
  Qed.
  Lemma emits_row {P X Y} `{EqDecision P} (p : P) (ports2 : list P) (x : X) (ix2 : P -> Y) (m : X -> Y -> K) (w : nd P -> K) t :
    emits (p2 ← ports2; if decide (m x (ix2 p2) = 0) then [] else [(I p, O p2, m x (ix2 p2))]) [] w (O t) =
    fsum (fun p2 => if decide (p2 = t) then m x (ix2 p2) * w (I p) else 0) ports2.
  Proof.
    induction ports2 as [|q l IH]; [apply emits_nil|]. rewrite bind_cons. etransitivity; [apply emits_app|]. cbn [fsum]. f_equal; [apply emits_one|apply IH].
  Qed.
  Lemma emits_inject {P X Y} `{EqDecision P} (ports1 ports2 : list P) (ix1 : P -> X) (ix2 : P -> Y) (m : X -> Y -> K) (w : nd P -> K) t :
    emits (inject ports1 ports2 ix1 ix2 m) [] w (O t) =
    fsum (fun p1 => fsum (fun p2 => if decide (p2 = t) then m (ix1 p1) (ix2 p2) * w (I p1) else 0) ports2) ports1.
  Proof.
    unfold inject. induction ports1 as [|q l IH]; [apply emits_nil|].
    rewrite bind_cons. etransitivity; [apply emits_app|]. cbn [fsum]. f_equal; [apply emits_row|apply IH].
  Qed.
  Lemma emits_inject3 t1 t2 (m : axis -> axis -> K) (w : nd port3 -> K) t i :
    emits (inject3 t1 t2 m) [] w (O (t, i)) =
    if decide (t = t2) then fsum (fun j => m j i * w (I (t1, j))) axes else 0.
  Proof.
    unfold inject3. rewrite emits_inject. 
    unfold ports3, axes, port3 in *. cbn [map fsum snd].
    destruct t, t2, i; repeat match goal with
    | |- context [@decide (?a = ?a) _] => rewrite (decide_True (P := a = a)) by reflexivity
    | |- context [@decide (?a = ?b) _] => rewrite (decide_False (P := a = b)) by discriminate
    end; ring.
  Qed.

  (** * One dimension *)
  Lemma lever1_lem (d Z0 : K) (w : nd pABL -> K) : Z0 <> 0 -> two <> 0 -> d * d + two <> 0 ->
    (obeys [LA; LB; LL] (lever1 d) [] w <->
     volt w LA - volt w LB = d * volt w LL /\ curr Z0 w LA + curr Z0 w LB = 0 /\ curr Z0 w LL + d * curr Z0 w LA = 0).
  Proof.
    intros HZ H2 Hd.
    assert (obeys [LA; LB; LL] (lever1 d) [] w <->
      (w (O LA) = emits (lever1 d) [] w (O LA) /\ w (O LB) = emits (lever1 d) [] w (O LB) /\ w (O LL) = emits (lever1 d) [] w (O LL))) as ->.
    { unfold obeys. split.
      - intros H. repeat split; apply H; rewrite !elem_of_cons; tauto.
      - intros (H1 & H3 & H4) p Hp. by destruct p. }
    unfold lever1. rewrite !emits_inject. cbn [fsum].
    repeat match goal with
    | |- context [@decide (?a = ?a) _] => rewrite (decide_True (P := a = a)) by reflexivity
    | |- context [@decide (?a = ?b) _] => rewrite (decide_False (P := a = b)) by discriminate
    end.
    unfold volt, curr. cbn [lever1_matrix].
    generalize (w (I LA)) (w (I LB)) (w (I LL)) (w (O LA)) (w (O LB)) (w (O LL)). intros a b l a' b' l'.
    split.
    - intros (-> & -> & ->). repeat split; field; done.
    - intros (E1 & E2 & E3).
      assert (b' = a + b - a') as ->.
      { apply fsub_0_eq. transitivity (- (Z0 * ((a - a') / Z0 + (b - b') / Z0))); [by field|]. rewrite E2. ring. }
      assert (l' = l + d * (a - a')) as ->.
      { apply fsub_0_eq. transitivity (- (Z0 * ((l - l') / Z0 + d * ((a - a') / Z0)))); [by field|]. rewrite E3. ring. }
      assert (a' = d * d / (d * d + two) * a + two / (d * d + two) * b + two * d / (d * d + two) * l) as ->.
      { apply fsub_0_eq. transitivity ((a + a' - (b + (a + b - a')) - d * (l + (l + d * (a - a')))) / (d * d + two)); [by field|].
        rewrite E1. by field. }
      repeat split; by field.
  Qed.

  (** * Three dimensions *)
  Section three.
    Context (d : K) (dv : axis -> K) (Hdd : d * d = dot dv dv) (Hd : d <> 0) (Hden : d * d + two <> 0) (H2 : two <> 0).
    Lemma np_dot_dot : np_dot dv dv = dot dv dv.
    Proof. unfold np_dot, dot. simpl. ring. Qed.
    (** outgoing waves, in vectors *)
    Lemma lever3_out (w : nd port3 -> K) t i :
      emits (lever3 d dv) [] w (O (t, i)) =
      let a j := w (I (LA, j)) in let b j := w (I (LB, j)) in let l j := w (I (LL, j)) in
      let lam j := a j - b j + cross l dv j in
      let den := d * d + two in
      let mu j := two / den * (lam j - dot dv lam / (d * d) * dv j) + dot dv lam / (d * d) * dv j in
      match t with LA => a i - mu i | LB => b i + mu i | LL => l i - cross dv mu i end.
    Proof.
      assert (dot dv dv <> 0) as Hdn.
      { rewrite <- Hdd. intros E. destruct (fmul_integral _ _ E); done. }
      unfold lever3. rewrite !emits_app, !emits_inject3. cbv zeta.
      unfold P_torque, I_sub, P_d. rewrite !np_dot_dot.
      destruct t; repeat match goal with
      | |- context [@decide (?a = ?a :> pABL) _] => rewrite (decide_True (P := a = a)) by reflexivity
      | |- context [@decide (?a = ?b :> pABL) _] => rewrite (decide_False (P := a = b)) by discriminate
      end; cbn [fsum axes].
      all: rewrite <- !Hdd.
      all: destruct i; cbn [P_force cross]; unfold np_eye;
        repeat match goal with
        | |- context [@decide (?a = ?a :> axis) _] => rewrite (decide_True (P := a = a)) by reflexivity
        | |- context [@decide (?a = ?b :> axis) _] => rewrite (decide_False (P := a = b)) by discriminate
        end; unfold dot in *; cbn [cross];
        unfold port3 in *;
        generalize (w (I (LA, AxX))) (w (I (LA, AxY))) (w (I (LA, AxZ))) (w (I (LB, AxX))) (w (I (LB, AxY))) (w (I (LB, AxZ)))
          (w (I (LL, AxX))) (w (I (LL, AxY))) (w (I (LL, AxZ))); intros aX aY aZ bX bY bZ lX lY lZ;
        set (x := dv AxX) in *; set (y := dv AxY) in *; set (z := dv AxZ) in *; clearbody x y z.
      all: field [Hdd]; done.
    Qed.
    Lemma obeys3 (es : list (edge port3)) (w : nd port3 -> K) :
      obeys all3 es [] w <-> forall t i, w (O (t, i)) = emits es [] w (O (t, i)).
    Proof.
      unfold obeys. split; [|intros H [t i] _; apply H].
      intros H t i. apply H. unfold all3, ports3, axes. cbn [map app].
      rewrite !elem_of_cons. destruct t, i; tauto.
    Qed.
    (** the constraint force is determined *)
    Lemma mu_unique (lam J : axis -> K) :
      (forall i, two * lam i = (d * d + two) * J i - dot dv J * dv i) ->
      forall i, J i = two / (d * d + two) * (lam i - dot dv lam / (d * d) * dv i) + dot dv lam / (d * d) * dv i.
    Proof.
      intros H. assert (dot dv lam = dot dv J) as Es.
      { apply (eq_scale two); [done|].
        transitivity (dv AxX * (two * lam AxX) + dv AxY * (two * lam AxY) + dv AxZ * (two * lam AxZ)); [unfold dot; ring|].
        rewrite !H. transitivity ((d * d + two) * dot dv J - dot dv J * dot dv dv); [unfold dot; ring|]. rewrite <- Hdd. ring. }
      intros i. rewrite Es. specialize (H i).
      assert (lam i = ((d * d + two) * J i - dot dv J * dv i) / two) as -> by (rewrite <- H; by field).
      generalize (dot dv J) (J i) (dv i). intros. field. done.
    Qed.
    Lemma lever3_gen (Z0 : K) (w : nd port3 -> K) : Z0 <> 0 ->
      (obeys all3 (lever3 d dv) [] w <-> rigid_rod dv Z0 w).
    Proof.
      intros HZ. rewrite obeys3. unfold rigid_rod, disp, force, volt, curr. split.
      - intros H i. pose proof (fun t i => eq_trans (H t i) (lever3_out w t i)) as H'. cbv zeta in H'. clear H. unfold port3 in *.
        set (a := fun j => w (I (LA, j))). set (b := fun j => w (I (LB, j))). set (l := fun j => w (I (LL, j))).
        set (lam := fun j => a j - b j + cross l dv j).
        set (mu := fun j => two / (d * d + two) * (lam j - dot dv lam / (d * d) * dv j) + dot dv lam / (d * d) * dv j).
        assert (forall j, w (O (LA, j)) = a j - mu j) as HA by (intros j; exact (H' LA j)).
        assert (forall j, w (O (LB, j)) = b j + mu j) as HB by (intros j; exact (H' LB j)).
        assert (forall j, w (O (LL, j)) = l j - cross dv mu j) as HL by (intros j; exact (H' LL j)).
        assert (forall j, two * lam j = (d * d + two) * mu j - dot dv mu * dv j) as Hm.
        { assert (dot dv mu = dot dv lam) as ->.
          { transitivity (two / (d * d + two) * (dot dv lam - dot dv lam / (d * d) * dot dv dv) + dot dv lam / (d * d) * dot dv dv).
            - unfold mu. set (q := dot dv lam / (d * d)). unfold dot. ring.
            - rewrite <- Hdd. generalize (dot dv lam). intros. by field. }
          intros j. unfold mu. generalize (dot dv lam) (lam j). intros. field. done. }
        split; [|split].
        + specialize (Hm i). rewrite HB, HA.
          assert (cross (fun i0 => w (I (LL, i0)) + w (O (LL, i0))) dv i = two * cross l dv i - cross (cross dv mu) dv i) as ->.
          { destruct i; cbn [cross]; rewrite !HL; unfold l; cbn [cross]; ring. }
          assert (cross (cross dv mu) dv i = d * d * mu i - dot dv mu * dv i) as ->.
          { rewrite Hdd. unfold dot. destruct i; cbn [cross]; ring. }
          apply fsub_0_eq. fold (a i) (b i).
          transitivity ((d * d + two) * mu i - dot dv mu * dv i - two * lam i); [unfold lam; ring|]. rewrite Hm. ring.
        + rewrite HA, HB. fold (a i) (b i). by field.
        + rewrite HL. fold (l i).
          assert (cross dv (fun i0 => (w (I (LB, i0)) - w (O (LB, i0))) / Z0) i = - (cross dv mu i) / Z0) as ->.
          { destruct i; cbn [cross]; rewrite !HB; unfold b; by field. }
          by field.
      - intros H. unfold port3 in *.
        set (a := fun j => w (I (LA, j))). set (b := fun j => w (I (LB, j))). set (l := fun j => w (I (LL, j))).
        set (J := fun j => a j - w (O (LA, j))).
        assert (forall j, w (O (LA, j)) = a j - J j) as HA by (intros j; unfold J; ring).
        assert (forall j, w (O (LB, j)) = b j + J j) as HB.
        { intros j. destruct (H j) as (_ & E & _). apply fsub_0_eq. unfold J. fold (a j) (b j) in E.
          transitivity (- (Z0 * ((a j - w (O (LA, j))) / Z0 + (b j - w (O (LB, j))) / Z0))); [by field|]. rewrite E. ring. }
        assert (forall j, w (O (LL, j)) = l j - cross dv J j) as HL.
        { intros j. destruct (H j) as (_ & _ & E). apply fsub_0_eq.
          assert (cross dv (fun i0 => (w (I (LB, i0)) - w (O (LB, i0))) / Z0) j = - (cross dv J j) / Z0) as E'.
          { destruct j; cbn [cross]; rewrite !HB; unfold b; by field. }
          rewrite E' in E. fold (l j) in E.
          transitivity (- (Z0 * ((l j - w (O (LL, j))) / Z0 + - cross dv J j / Z0))); [by field|]. rewrite E. ring. }
        set (lam := fun j => a j - b j + cross l dv j).
        assert (forall j, two * lam j = (d * d + two) * J j - dot dv J * dv j) as Hm.
        { intros j. destruct (H j) as (E & _). rewrite HB, HA in E.
          assert (cross (fun i0 => w (I (LL, i0)) + w (O (LL, i0))) dv j = two * cross l dv j - cross (cross dv J) dv j) as E1.
          { destruct j; cbn [cross]; rewrite !HL; unfold l; cbn [cross]; ring. }
          assert (cross (cross dv J) dv j = d * d * J j - dot dv J * dv j) as E2.
          { rewrite Hdd. unfold dot. destruct j; cbn [cross]; ring. }
          rewrite E1, E2 in E. fold (a j) (b j) in E. unfold lam. apply fsub_0_eq.
          transitivity ((a j + (a j - J j) + (two * cross l dv j - (d * d * J j - dot dv J * dv j))) - (b j + (b j + J j))); [ring|].
          rewrite <- E. ring. }
        pose proof (mu_unique lam J Hm) as Hmu.
        intros t i. rewrite lever3_out. cbv zeta. fold a b l. fold lam.
        destruct t.
        + rewrite HA, Hmu at 1. reflexivity.
        + rewrite HB, Hmu at 1. reflexivity.
        + rewrite HL at 1. f_equal. destruct i; cbn [cross]; by rewrite !Hmu at 1.
    Qed.
  End three.
End proofs.
