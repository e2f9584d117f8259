(** The loops over pairs of frequencies, and what an element adds up to. *)
From stdpp Require Import base tactics numbers gmap sets list.
From Coq Require Import Reals Lra.
From Verif Require Import Fld Py Herm ElecModel InjModel InjSpec OptModel SigModel SigSpec SigProofs PdModel PdSpec.
Local Open Scope fld_scope.
Add Field FCPd : (f_theory C_fld).

Lemma cadd_0 (z : C_fld) : z + 0 = z. Proof. ring. Qed.
Lemma bind_ok {X Y} (x : res X) (f : X -> res Y) y : (x ≫= f) = Ok y -> exists a, x = Ok a /\ f a = Ok y.
Proof. destruct x; [|done]. intros E. by eexists. Qed.

Section loops.
  Context {P A Q : Type} `{Countable P} `{Countable A} `{Countable Q}.
  Context (qneg : Q -> Q) (Hnn : forall a, qneg (qneg a) = a).
  Notation js := (list (inj C_fld P (key A Q))).
  Context (W : inj C_fld P (key A Q) -> C_fld) (pair : Q -> js) (g : Q -> C_fld).
  Implicit Types (lks todo : list Q) (dn : gset Q).

  Lemma pair_sum lk todo dn :
    NoDup (lk :: todo) -> lk ∉ dn -> (forall k, k ∈ dn -> qneg k ∈ dn) -> qneg lk <> lk -> qneg lk ∈ todo ->
    g lk + g (qneg lk) + fsum (fun k => if decide (k ∈ {[lk; qneg lk]} ∪ dn) then 0 else g k) todo =
    g lk + fsum (fun k => if decide (k ∈ dn) then 0 else g k) todo.
  Proof.
    intros Hd Hn Hc Hne Hin. apply NoDup_cons in Hd as [H1' H2'].
    rewrite (fsum_ext (fun k => if decide (k ∈ dn) then 0 else g k)
      (fun k => (if decide (k = qneg lk) then g k else 0) + (if decide (k ∈ {[lk; qneg lk]} ∪ dn) then 0 else g k)) todo).
    - rewrite fsum_add, fsum_delta by done. rewrite decide_True by done. ring.
    - intros k Hk. destruct (decide (k = qneg lk)) as [->|Hk2].
      + rewrite decide_False by (intros Hd; apply Hc in Hd; by rewrite Hnn in Hd).
        rewrite decide_True by set_solver. ring.
      + destruct (decide (k ∈ dn)); [rewrite decide_True by set_solver; ring|].
        rewrite decide_False; [ring|]. set_solver.
  Qed.

  Lemma drives_sum lks todo : forall dn r,
    (forall lk, qneg lk <> lk -> fsum W (pair lk) = g lk + g (qneg lk)) ->
    NoDup todo -> (forall k, k ∈ dn -> qneg k ∈ dn) -> (forall k, k ∈ lks -> k ∈ todo \/ k ∈ dn \/ qneg k = k) ->
    drives qneg pair lks todo dn = Ok r ->
    fsum W r = fsum (fun k => if decide (k ∈ dn) then 0 else if decide (qneg k = k) then 0 else g k) todo.
  Proof.
    induction todo as [|lk todo IH]; cbn [drives]; intros dn r Hp Hd Hc Hl E; [by simplify_eq|].
    assert (NoDup todo) as Hd' by (by apply NoDup_cons in Hd as [??]).
    assert (lk ∉ todo) as Hlk by (by apply NoDup_cons in Hd as [??]).
    cbn [fsum]. destruct (decide (lk ∈ dn)) as [Hin|Hin].
    { rewrite <- (IH dn r); try done; [ring|]. intros k Hk. destruct (Hl k Hk) as [Hk'|[?|?]]; [|by auto|by auto].
      apply elem_of_cons in Hk' as [->|?]; auto. }
    destruct (decide (qneg lk = lk)) as [Hs|Hs].
    { rewrite <- (IH dn r); try done; [ring|]. intros k Hk. destruct (Hl k Hk) as [Hk'|[?|?]]; [|by auto|by auto].
      apply elem_of_cons in Hk' as [->|?]; auto. }
    destruct (decide (qneg lk ∈ lks)) as [Hm|]; [|done].
    destruct (drives qneg pair lks todo _) as [r2|] eqn:E2; [|done]. cbn [mbind res_bind] in E. injection E as <-.
    rewrite fsum_app, Hp by done. rewrite (IH _ _ Hp Hd') with (3 := E2).
    - assert (qneg lk ∈ todo) as Ht.
      { destruct (Hl _ Hm) as [Hk|[Hk|Hk]].
        - apply elem_of_cons in Hk as [?|?]; done.
        - apply Hc in Hk. by rewrite Hnn in Hk.
        - rewrite Hnn in Hk. done. }
      pose proof (pair_sum lk todo dn Hd Hin Hc Hs Ht) as PS.
      set (g' := fun k => if decide (qneg k = k) then 0 else g k).
      rewrite (fsum_ext (fun k => if decide (k ∈ {[lk; qneg lk]} ∪ dn) then 0 else if decide (qneg k = k) then 0 else g k)
        (fun k => (if decide (k ∈ {[lk; qneg lk]} ∪ dn) then 0 else g k) + (if decide (k ∈ dn) then 0 else if decide (qneg k = k) then - g k else 0))).
      2: { intros k Hk. destruct (decide (qneg k = k)).
           - assert (k <> lk) by congruence. assert (k <> qneg lk) by (intros ->; congruence).
             destruct (decide (k ∈ dn)), (decide (k ∈ {[lk; qneg lk]} ∪ dn)); try ring; set_solver.
           - destruct (decide (k ∈ {[lk; qneg lk]} ∪ dn)); destruct (decide (k ∈ dn)); ring. }
      rewrite fsum_add.
      transitivity (g lk + fsum (fun k => if decide (k ∈ dn) then 0 else g k) todo + fsum (fun k => if decide (k ∈ dn) then 0 else if decide (qneg k = k) then - g k else 0) todo).
      { rewrite <- PS. ring. }
      transitivity (g lk + (fsum (fun k => if decide (k ∈ dn) then 0 else g k) todo + fsum (fun k => if decide (k ∈ dn) then 0 else if decide (qneg k = k) then - g k else 0) todo)); [ring|].
      rewrite <- fsum_add. f_equal. apply fsum_ext. intros k _. destruct (decide (k ∈ dn)); [ring|]. destruct (decide (qneg k = k)); ring.
    - intros k Hk. apply elem_of_union in Hk as [Hk|Hk]; [|apply Hc in Hk; set_solver].
      assert (k = lk \/ k = qneg lk) as [->| ->] by set_solver; [set_solver|rewrite Hnn; set_solver].
    - intros k Hk. destruct (Hl k Hk) as [Hk'|[?|?]]; [|set_solver|by auto].
      apply elem_of_cons in Hk' as [->|?]; set_solver.
  Qed.

  Lemma outs_sum lks todo : forall dn r,
    (forall lk, fsum W (pair lk) = if decide (qneg lk = lk) then g lk else g lk + g (qneg lk)) ->
    NoDup todo -> (forall k, k ∈ dn -> qneg k ∈ dn) -> (forall k, k ∈ lks -> k ∈ todo \/ k ∈ dn) ->
    outs qneg pair lks todo dn = Ok r ->
    fsum W r = fsum (fun k => if decide (k ∈ dn) then 0 else g k) todo.
  Proof.
    induction todo as [|lk todo IH]; cbn [outs]; intros dn r Hp Hd Hc Hl E; [by simplify_eq|].
    assert (NoDup todo) as Hd' by (by apply NoDup_cons in Hd as [??]).
    assert (lk ∉ todo) as Hlk by (by apply NoDup_cons in Hd as [??]).
    cbn [fsum]. destruct (decide (lk ∈ dn)) as [Hin|Hin].
    { rewrite <- (IH dn r); try done; [ring|]. intros k Hk. destruct (Hl k Hk) as [Hk'|?]; [|by auto].
      apply elem_of_cons in Hk' as [->|?]; auto. }
    destruct (decide (qneg lk ∈ lks)) as [Hm|]; [|done].
    destruct (outs qneg pair lks todo _) as [r2|] eqn:E2; [|done]. cbn [mbind res_bind] in E. injection E as <-.
    rewrite fsum_app, Hp. rewrite (IH _ _ Hp Hd') with (3 := E2).
    - destruct (decide (qneg lk = lk)) as [Hs|Hs].
      + f_equal. apply fsum_ext. intros k Hk. assert (k <> lk) by congruence. rewrite Hs.
        destruct (decide (k ∈ dn)); [by rewrite decide_True by set_solver|rewrite decide_False; [done|set_solver]].
      + apply pair_sum; try done. destruct (Hl _ Hm) as [Hk|Hk].
        * apply elem_of_cons in Hk as [?|?]; done.
        * apply Hc in Hk. by rewrite Hnn in Hk.
    - intros k Hk. apply elem_of_union in Hk as [Hk|Hk]; [|apply Hc in Hk; set_solver].
      assert (k = lk \/ k = qneg lk) as [->| ->] by set_solver; [set_solver|rewrite Hnn; set_solver].
    - intros k Hk. destruct (Hl k Hk) as [Hk'|?]; [|set_solver].
      apply elem_of_cons in Hk' as [->|?]; set_solver.
  Qed.
End loops.
Section fails.
  Context {P A Q : Type} `{Countable P} `{Countable A} `{Countable Q}.
  Context (qneg : Q -> Q) (pair : Q -> list (inj C_fld P (key A Q))).
  (** when the loops fail *)
  Lemma drives_ok lks todo : forall dn, (forall k, k ∈ todo -> qneg k ∈ lks) -> exists r, drives qneg pair lks todo dn = Ok r.
  Proof.
    induction todo as [|lk todo IH]; cbn [drives]; intros dn Hc; [by eexists|].
    assert (forall k, k ∈ todo -> qneg k ∈ lks) as Hc' by set_solver.
    destruct (decide _); [by apply IH|]. destruct (decide _); [by apply IH|].
    rewrite decide_True by set_solver. destruct (IH ({[lk; qneg lk]} ∪ dn) Hc') as [r ->]. by eexists.
  Qed.
  Lemma outs_ok lks todo : forall dn, (forall k, k ∈ todo -> qneg k ∈ lks) -> exists r, outs qneg pair lks todo dn = Ok r.
  Proof.
    induction todo as [|lk todo IH]; cbn [outs]; intros dn Hc; [by eexists|].
    assert (forall k, k ∈ todo -> qneg k ∈ lks) as Hc' by set_solver.
    destruct (decide _); [by apply IH|].
    rewrite decide_True by set_solver. destruct (IH ({[lk; qneg lk]} ∪ dn) Hc') as [r ->]. by eexists.
  Qed.
  Lemma outs_err lks todo : forall dn k, (forall a, qneg (qneg a) = a) -> k ∈ todo -> k ∉ dn -> (forall k, k ∈ dn -> qneg k ∈ dn) -> qneg k ∉ lks ->
    (forall j, j ∈ todo -> j ∈ lks) -> outs qneg pair lks todo dn = Err AssertionError.
  Proof.
    induction todo as [|lk todo IH]; cbn [outs]; intros dn k Hnn Hk Hkd Hc Hn Hl; [set_solver|].
    assert (forall j, j ∈ todo -> j ∈ lks) as Hl' by set_solver.
    destruct (decide (lk ∈ dn)); [apply (IH dn k); set_solver|].
    destruct (decide (qneg lk ∈ lks)) as [Hm|]; [|done].
    rewrite (IH _ k); [done|done| | | |done|done].
    - apply elem_of_cons in Hk as [->|?]; done.
    - assert (k <> lk) by congruence. assert (k <> qneg lk); [|set_solver]. intros ->. apply Hn. rewrite Hnn. apply Hl. set_solver.
    - intros k' Hk'. apply elem_of_union in Hk' as [Hk'|Hk']; [|apply Hc in Hk'; set_solver].
      assert (k' = lk \/ k' = qneg lk) as [->| ->] by set_solver; [set_solver|rewrite Hnn; set_solver].
  Qed.
End fails.


Lemma each_sum {P A Q} `{Countable P} `{Countable A} `{Countable Q} {B} (W : inj C_fld P (key A Q) -> C_fld) f (h : B -> C_fld) l : forall r,
  (forall b r, b ∈ l -> f b = Ok r -> fsum W r = h b) -> each f l = Ok r -> fsum W r = fsum h l.
Proof.
  induction l as [|b l IH]; cbn [each]; intros r Hf E; [by simplify_eq|].
  destruct (f b) as [r1|] eqn:E1; [|done]. cbn [mbind res_bind] in E.
  destruct (each f l) as [r2|] eqn:E2; [|done]. cbn [mbind res_bind] in E. injection E as <-.
  cbn [fsum]. rewrite fsum_app. f_equal; [apply Hf; [set_solver|done]|]. apply IH; [|done]. intros b' r' Hb. apply Hf. set_solver.
Qed.
Lemma each_ok {P A Q} `{Countable P} `{Countable A} `{Countable Q} {B} (f : B -> res (list (inj C_fld P (key A Q)))) l :
  (forall b, b ∈ l -> exists r, f b = Ok r) -> exists r, each f l = Ok r.
Proof.
  induction l as [|b l IH]; cbn [each]; intros Hf; [by eexists|].
  destruct (Hf b) as [r1 ->]; [set_solver|]. destruct IH as [r2 ->]; [set_solver|]. by eexists.
Qed.
Lemma each_err {P A Q} `{Countable P} `{Countable A} `{Countable Q} {B} (f : B -> res (list (inj C_fld P (key A Q)))) l e :
  (forall b, b ∈ l -> f b = Err e) -> l <> [] -> each f l = Err e.
Proof. destruct l as [|b l]; [done|]. cbn [each]. intros Hf _. by rewrite Hf by set_solver. Qed.

Section fill.
  Context {P A Q : Type} `{Countable P} `{Countable A} `{Countable Q}.
  Context (qadd : Q -> Q -> Q) (qneg : Q -> Q) (q0 : Q) (Hz : Q -> R) (HF : frequencies qadd qneg q0 Hz).
  Context (reject : Q -> bool).
  Context (W : inj C_fld P (key A Q) -> C_fld).
  Notation fill := (modulations_fill (P := P) (A := A) (Q := Q) qadd qneg reject).

  Lemma fq_inj a b c : qadd a b = qadd a c -> b = c.
  Proof.
    destruct HF as [Hc Ha Hq0 Hn _ _]. intros E.
    assert (forall x, qadd (qneg a) (qadd a x) = x) as Hx.
    { intros x. by rewrite Ha, (Hc (qneg a)), Hn, (Hc q0), Hq0. }
    by rewrite <- (Hx b), E, Hx.
  Qed.
  Lemma fq_nn a : qneg (qneg a) = a.
  Proof. destruct HF as [Hc Ha Hq0 Hn _ _]. apply (fq_inj (qneg a)). by rewrite Hn, (Hc _ a), Hn. Qed.
  Lemma fq_neg0 : qneg q0 = q0.
  Proof. destruct HF as [Hc Ha Hq0 Hn _ _]. apply (fq_inj q0). by rewrite Hn, Hq0. Qed.
  Lemma fq_self a : qneg a = a <-> a = q0.
  Proof. split; [apply HF|]. intros ->. apply fq_neg0. Qed.
  Lemma fq_shift a b c : qadd a b = c <-> b = qadd c (qneg a).
  Proof.
    destruct HF as [Hc Ha Hq0 Hn _ _]. split; [intros <-|intros ->].
    - by rewrite (Hc a), <- Ha, Hn, Hq0.
    - by rewrite (Hc c), Ha, Hn, (Hc q0), Hq0.
  Qed.
  Lemma fq_back a b : qadd (qadd a b) (qneg b) = a.
  Proof. destruct HF as [Hc Ha Hq0 Hn _ _]. by rewrite <- Ha, Hn, Hq0. Qed.
  Lemma fq_forth a b : qadd (qadd a (qneg b)) b = a.
  Proof. destruct HF as [Hc Ha Hq0 Hn _ _]. by rewrite <- Ha, (Hc (qneg b)), Hn, Hq0. Qed.
  Lemma fq_neg_sub a b : qneg (qadd a (qneg b)) = qadd b (qneg a).
  Proof.
    apply (fq_inj (qadd a (qneg b))). rewrite (fq_neg _ _ _ _ HF).
    rewrite (fq_assoc _ _ _ _ HF), fq_forth. by rewrite (fq_neg _ _ _ _ HF).
  Qed.
  Lemma fq_Hz0 : Hz q0 = 0%R.
  Proof. destruct HF as [Hc Ha Hq0 Hn _ Hh]. pose proof (Hh q0 q0) as E. rewrite Hq0 in E. lra. Qed.
  Lemma fq_Hzn a : Hz (qneg a) = (- Hz a)%R.
  Proof. destruct HF as [Hc Ha Hq0 Hn _ Hh]. pose proof (Hh a (qneg a)) as E. rewrite Hn, fq_Hz0 in E. lra. Qed.

  (** one drive frequency: into the field of a mode *)
  Definition d1 pfrom pto inp (k : bool * A * Q) (Std StdC CL CLC : C_fld) (F : Q) : C_fld :=
    let '(lower, o, f) := k in
    let f' := qadd f (if lower then F else qneg F) in
    if reject f' then 0 else W (Triplet (pfrom, opt lower o f) (inp, cls F) (pto, opt lower o f') (if lower then Std * CL else StdC * CLC)).
  (** one output frequency *)
  Definition o1 pfrom outp (k : bool * A * Q) (Std StdC BA BAC : C_fld) (F : Q) : C_fld :=
    let '(lower, o, f) := k in
    let f' := qadd f (if lower then F else qneg F) in
    let c := if lower then Std * BA else StdC * BAC in
    if reject f' then 0 else W (MultiplicativeEdge (pfrom, opt lower o f') (outp, cls F) (if decide (F = q0) then c / two_c else c) [(pfrom, opt (negb lower) o f)]).

  Lemma drive_pair_sum pfrom pto inp lower o f Std StdC CL CLC lk : qneg lk <> lk ->
    fsum W (drive_pair qadd qneg reject pfrom pto inp lower o f lk Std StdC CL CLC) =
    d1 pfrom pto inp (lower, o, f) Std StdC CL CLC lk + d1 pfrom pto inp (lower, o, f) Std StdC CL CLC (qneg lk).
  Proof.
    intros _. unfold drive_pair, d1. rewrite fq_nn. destruct lower; rewrite fsum_app; destruct (reject (qadd f lk)), (reject (qadd f (qneg lk))); cbn [fsum]; ring.
  Qed.
  Lemma out_pair_sum pfrom outp lower o f Std StdC BA BAC lk :
    fsum W (out_pair qadd qneg reject pfrom outp lower o f lk Std StdC BA BAC) =
    if decide (qneg lk = lk) then o1 pfrom outp (lower, o, f) Std StdC BA BAC lk else
    o1 pfrom outp (lower, o, f) Std StdC BA BAC lk + o1 pfrom outp (lower, o, f) Std StdC BA BAC (qneg lk).
  Proof.
    unfold out_pair, o1. destruct (decide (qneg lk = lk)) as [E|E].
    - rewrite (decide_True (P := lk = q0)) by (by apply fq_self). rewrite !E.
      destruct lower; destruct (decide (lk <> lk)); try done; destruct (reject (qadd f lk)); cbn [fsum negb]; ring.
    - rewrite fq_nn. rewrite !(decide_False (P := lk = q0)) by (by intros ?%fq_self).
      assert (qneg lk <> q0) as E2. { intros E3. apply E. apply fq_self. rewrite <- (fq_nn lk), E3. apply fq_neg0. }
      rewrite !(decide_False (P := qneg lk = q0)) by done.
      destruct lower; (rewrite decide_True by done); rewrite fsum_app; destruct (reject (qadd f lk)), (reject (qadd f (qneg lk))); cbn [fsum negb]; ring.
  Qed.

  (** what an element adds up to *)
  Definition fill_sum (pfrom : P) (k : bool * A * Q) (pto : option P) (inp outp : option (P * list Q))
      (Std StdC CL CLC BA BAC : C_fld) (through : bool) : C_fld :=
    match pto, inp with
    | Some pto, Some (inp, lks) => fsum (fun F => if decide (F = q0) then 0 else d1 pfrom pto inp k Std StdC CL CLC F) lks
    | _, _ => 0
    end +
    match pto with
    | Some pto => if through then W (ConstantEdge (pfrom, opt k.1.1 k.1.2 k.2) (pto, opt k.1.1 k.1.2 k.2) (if k.1.1 then Std else StdC)) else 0
    | None => 0
    end +
    match outp with
    | Some (outp, lks) => fsum (fun F => o1 pfrom outp k Std StdC BA BAC F) lks
    | None => 0
    end.
  Definition keys_ok (o : option (P * list Q)) : Prop := match o with Some (_, l) => NoDup l | None => True end.

  Lemma fill_eq pfrom k pto inp outp Std StdC CL CLC BA BAC through r :
    keys_ok inp -> keys_ok outp -> fill pfrom k pto inp outp Std StdC CL CLC BA BAC through = Ok r ->
    fsum W r = fill_sum pfrom k pto inp outp Std StdC CL CLC BA BAC through.
  Proof.
    intros Hi Ho E. destruct k as [[lower o] f]. unfold modulations_fill in E. unfold fill_sum. cbn [fst snd].
    apply bind_ok in E as (a & Ea & E). apply bind_ok in E as (b & Eb & E). apply bind_ok in E as (c & Ec & E).
    injection E as <-. rewrite !fsum_app.
    assert (fsum W a = match pto, inp with
      | Some pto, Some (inp, lks) => fsum (fun F => if decide (F = q0) then 0 else d1 pfrom pto inp (lower, o, f) Std StdC CL CLC F) lks
      | _, _ => 0 end) as ->.
    { destruct pto as [pto|]; [|by simplify_eq]. destruct inp as [[inp lks]|]; [|by simplify_eq].
      etransitivity; [eapply (drives_sum qneg fq_nn W) with (g := d1 pfrom pto inp (lower, o, f) Std StdC CL CLC) (5 := Ea); [|done|set_solver|auto]|].
      2: { apply fsum_ext. intros F _. rewrite (decide_False (P := F ∈ ∅)) by set_solver.
        destruct (decide (qneg F = F)) as [E|E]; [rewrite decide_True; [done|by apply fq_self]|rewrite decide_False; [done|by rewrite <- fq_self]]. }
      intros lk Hlk. by apply drive_pair_sum. }
    assert (fsum W b = match pto with
      | Some pto => if through then W (ConstantEdge (pfrom, opt lower o f) (pto, opt lower o f) (if lower then Std else StdC)) else 0 | None => 0 end) as ->.
    { destruct pto as [pto|]; [|by simplify_eq]. destruct through; injection Eb as <-; cbn [fsum]; [|done]. apply cadd_0. }
    assert (fsum W c = match outp with Some (outp, lks) => fsum (fun F => o1 pfrom outp (lower, o, f) Std StdC BA BAC F) lks | None => 0 end) as ->.
    { destruct outp as [[outp lks]|]; [|by simplify_eq].
      etransitivity; [eapply (outs_sum qneg fq_nn W) with (g := o1 pfrom outp (lower, o, f) Std StdC BA BAC) (5 := Ec); [|done|set_solver|auto]|].
      2: { apply fsum_ext. intros F _. by rewrite (decide_False (P := F ∈ ∅)) by set_solver. }
      intros lk. by apply out_pair_sum. }
    ring.
  Qed.
  Definition keys_closed (o : option (P * list Q)) : Prop := match o with Some (_, l) => forall k, k ∈ l -> qneg k ∈ l | None => True end.
  Lemma fill_ok pfrom k pto inp outp Std StdC CL CLC BA BAC through :
    keys_closed inp -> keys_closed outp -> exists r, fill pfrom k pto inp outp Std StdC CL CLC BA BAC through = Ok r.
  Proof.
    intros Hi Ho. destruct k as [[lower o] f]. unfold modulations_fill.
    assert (exists a, match pto, inp with Some pto, Some (inp, lks) =>
      drives qneg (fun lk => drive_pair qadd qneg reject pfrom pto inp lower o f lk Std StdC CL CLC) lks lks ∅ | _, _ => Ok [] end = Ok a) as [a ->].
    { destruct pto as [pto|]; [|by eexists]. destruct inp as [[inp lks]|]; [|by eexists]. apply drives_ok. exact Hi. }
    cbn [mbind res_bind].
    assert (exists c, match outp with Some (outp, lks) =>
      outs qneg (fun lk => out_pair qadd qneg reject pfrom outp lower o f lk Std StdC BA BAC) lks lks ∅ | None => Ok [] end = Ok c) as [c ->].
    { destruct outp as [[outp lks]|]; [|by eexists]. apply outs_ok. exact Ho. }
    destruct pto; by eexists.
  Qed.
End fill.
