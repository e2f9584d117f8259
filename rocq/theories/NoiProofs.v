(** Lemmas for NoiProps.v: noise readouts. *)
From Coq Require Import Reals Lra.
From stdpp Require Import base tactics numbers gmap list.
From Verif Require Import Fld Py Herm SigModel NoiModel NoiSpec.

Lemma foldl_bind {A B S} (f : S -> B -> S) (g : A -> list B) (l : list A) : forall s,
  foldl f s (l ≫= g) = foldl (fun s x => foldl f s (g x)) s l.
Proof. induction l as [|x l IH]; intros s; [done|]. cbn [mbind list_bind foldl]. rewrite foldl_app. apply IH. Qed.
Lemma foldl_ext {A S} (f g : S -> A -> S) (l : list A) : (forall s x, x ∈ l -> f s x = g s x) -> forall s, foldl f s l = foldl g s l.
Proof.
  induction l as [|x l IH]; intros H s; [done|]. cbn [foldl]. rewrite H by set_solver. apply IH. set_solver.
Qed.
Lemma foldl_fmap {A B S} (f : S -> B -> S) (g : A -> B) (l : list A) : forall s, foldl f s (g <$> l) = foldl (fun s x => f s (g x)) s l.
Proof. induction l as [|x l IH]; intros s; [done|]. apply IH. Qed.
Section sums.
  Context {K : fld}.
  Add Field FKN : (f_theory K).
  Local Open Scope fld_scope.
  Lemma fsum_bind {A B} (f : B -> K) (g : A -> list B) l : fsum f (l ≫= g) = fsum (fun x => fsum f (g x)) l.
  Proof. induction l as [|x l IH]; [done|]. cbn [mbind list_bind fsum]. by rewrite fsum_app, IH. Qed.
  Lemma fsum_fmap {A B} (f : B -> K) (g : A -> B) l : fsum f (g <$> l) = fsum (fun x => f (g x)) l.
  Proof. induction l as [|x l IH]; [done|]. cbn [fmap list_fmap fsum]. by rewrite IH. Qed.
  Lemma fsum_0 {A} (l : list A) (f : A -> K) : (forall x, x ∈ l -> f x = 0) -> fsum f l = 0.
  Proof. induction l as [|x l IH]; intros H; [done|]. cbn [fsum]. rewrite H, IH by set_solver. ring. Qed.
  Lemma fsum_plus {A} (l : list A) (f g : A -> K) : fsum (fun x => f x + g x) l = fsum f l + fsum g l.
  Proof. induction l as [|x l IH]; cbn [fsum]; [ring|]. rewrite IH. ring. Qed.
  Lemma fsum_scale {A} (l : list A) (f : A -> K) c : fsum (fun x => c * f x) l = c * fsum f l.
  Proof. induction l as [|x l IH]; cbn [fsum]; [ring|]. rewrite IH. ring. Qed.
  Lemma foldl_sum {A} (f : A -> K) l : forall s, foldl (fun s x => s + f x) s l = s + fsum f l.
  Proof. induction l as [|x l IH]; intros s; cbn [foldl fsum]; [ring|]. rewrite IH. ring. Qed.
  Lemma fsum_filter {A} (f : A -> K) (P : A -> bool) l : fsum f (List.filter P l) = fsum (fun x => if P x then f x else 0) l.
  Proof. induction l as [|x l IH]; [done|]. simpl. destruct (P x); simpl; rewrite IH; ring. Qed.
End sums.

(** ** dictionaries *)
Section dict.
  Context {K : fld} {A B : Type} `{EqDecision A}.
  Add Field FKN2 : (f_theory K).
  Implicit Types (d : list (A * B)).
  Lemma dict_get_in k d v : dict_get k d = Some v -> (k, v) ∈ d.
  Proof. induction d as [|[k' v'] d IH]; simpl; [done|]. destruct (decide (k' = k)) as [->|]; [intros [= ->]; set_solver|]. intros. apply elem_of_cons. auto. Qed.
  Lemma dict_get_notin k d : dict_get k d = None <-> k ∉ d.*1.
  Proof.
    induction d as [|[k' v'] d IH]; simpl; [split; [intros _; set_solver|done]|]. destruct (decide (k' = k)) as [->|]; [split; [done|set_solver]|]. rewrite IH. set_solver.
  Qed.
  Lemma dict_get_app k d1 d2 : dict_get k (d1 ++ d2) = match dict_get k d1 with Some v => Some v | None => dict_get k d2 end.
  Proof. induction d1 as [|[k' v'] d1 IH]; simpl; [done|]. by destruct (decide (k' = k)). Qed.
  Lemma dict_set_keys k v d : forall x, x ∈ (dict_set k v d).*1 <-> x = k \/ x ∈ d.*1.
  Proof.
    induction d as [|[k' v'] d IH]; intros x; simpl; [set_solver|]. destruct (decide (k' = k)) as [->|]; simpl; [set_solver|].
    rewrite !elem_of_cons, IH. tauto.
  Qed.
  Lemma dict_set_nodup k v d : NoDup d.*1 -> NoDup (dict_set k v d).*1.
  Proof.
    induction d as [|[k' v'] d IH]; simpl; intros Hd; [by apply NoDup_singleton|]. apply NoDup_cons in Hd as [H1 H2].
    destruct (decide (k' = k)) as [->|]; simpl; [by apply NoDup_cons|]. apply NoDup_cons. split; [|by apply IH]. rewrite dict_set_keys. tauto.
  Qed.
  Lemma dict_get_set k v d k' : dict_get k' (dict_set k v d) = if decide (k = k') then Some v else dict_get k' d.
  Proof.
    induction d as [|[k2 v2] d IH]; simpl; [done|]. destruct (decide (k2 = k)) as [->|]; simpl.
    - by destruct (decide (k = k')).
    - destruct (decide (k2 = k')) as [->|]; [|done]. by destruct (decide (k = k')).
  Qed.
  Lemma fsum_dict (F : A -> B -> K) k d : NoDup d.*1 ->
    fsum (fun z => if decide (z.1 = k) then F k z.2 else 0%F) d = match dict_get k d with Some c => F k c | None => 0%F end.
  Proof.
    induction d as [|[k' v] d IH]; simpl; intros Hd; [done|]. apply NoDup_cons in Hd as [H1 H2]. destruct (decide (k' = k)) as [->|].
    - rewrite fsum_0; [ring|]. intros [k2 v2] Hz. simpl. rewrite decide_False; [done|]. intros ->. apply H1. apply elem_of_list_fmap. by exists (k, v2).
    - rewrite IH by done. ring.
  Qed.
End dict.

Lemma default_get_nil {A B} `{EqDecision A} (k : A) : dict_get (B := B) k [] = None.
Proof. done. Qed.

Section noise.
  Context {Port Key Obj Name : Type}.
  Context `{Countable Port, Countable Key, Countable Obj, Countable Name}.
  Notation pk := (Port * Key)%type.
  Notation nmap := (gmap pk (gmap pk (list (pk * pk * Obj)))).
  Add Field FCN : (f_theory C_fld).
  Implicit Types (pm port_map : list (Name * Port)) (coupling : list ((pk * pk) * C_fld)).

  Lemma gain_get coupling a b : NoDup coupling.*1 -> gain coupling a b = default (0%F : C_fld) (dict_get (a, b) coupling).
  Proof.
    intros Hd. unfold gain. etransitivity; [|etransitivity; [apply (fsum_dict (K := C_fld) (fun _ c => c) (a, b) coupling Hd)|by destruct (dict_get (a, b) coupling)]].
    done.
  Qed.
  (** *** the couplings into the readouts *)
  Definition kstep key (f : pk) (t : pk) (c : C_fld) (kv : list (Name * list (pk * C_fld))) (y : Name * Port) :=
    let '(pname, port) := y in
    if decide (t = (port, key)) then dict_set pname (dict_set f c (default [] (dict_get pname kv))) kv else kv.
  Lemma kstep_nodup key f t c pm : forall kv, NoDup kv.*1 -> NoDup (foldl (kstep key f t c) kv pm).*1.
  Proof.
    induction pm as [|[p port] pm IH]; intros kv Hk; [done|]. cbn [foldl]. apply IH. unfold kstep. destruct (decide _); [by apply dict_set_nodup|done].
  Qed.
  Lemma kstep_other key f t c pm p : p ∉ pm.*1 -> forall kv, dict_get p (foldl (kstep key f t c) kv pm) = dict_get p kv.
  Proof.
    induction pm as [|[p' port'] pm IH]; intros Hp kv; [done|]. cbn [foldl]. rewrite IH by set_solver. unfold kstep. destruct (decide _); [|done].
    rewrite dict_get_set, decide_False; [done|]. set_solver.
  Qed.
  Lemma kstep_get key f t c pm p port : NoDup pm.*1 -> (p, port) ∈ pm -> forall kv,
    dict_get p (foldl (kstep key f t c) kv pm) =
    if decide (t = (port, key)) then Some (dict_set f c (default [] (dict_get p kv))) else dict_get p kv.
  Proof.
    induction pm as [|[p' port'] pm IH]; intros Hd Hp kv; [set_solver|]. cbn [foldl]. cbn in Hd. apply NoDup_cons in Hd as [Hn Hd].
    apply elem_of_cons in Hp as [[= <- <-]|Hp].
    - rewrite kstep_other by done. unfold kstep. destruct (decide _); [|done]. by rewrite dict_get_set, decide_True.
    - rewrite IH by done. assert (p' <> p). { intros ->. apply Hn. apply elem_of_list_fmap. by exists (p, port). }
      assert (E : dict_get p (kstep key f t c kv (p', port')) = dict_get p kv).
      { unfold kstep. destruct (decide (t = (port', key))); [|done]. by rewrite dict_get_set, decide_False. }
      by rewrite E.
  Qed.
  Lemma kvecs_snoc coupling pm key f t c :
    kvecs (coupling ++ [((f, t), c)]) pm key = foldl (kstep key f t c) (kvecs coupling pm key) pm.
  Proof. unfold kvecs. by rewrite foldl_app. Qed.
  Lemma kvecs_spec pm key coupling : NoDup coupling.*1 -> NoDup pm.*1 ->
    NoDup (kvecs coupling pm key).*1 /\
    forall p port, (p, port) ∈ pm ->
      NoDup (default [] (dict_get p (kvecs coupling pm key))).*1 /\
      forall f, dict_get f (default [] (dict_get p (kvecs coupling pm key))) = dict_get (f, (port, key)) coupling.
  Proof.
    intros Hd Hp. induction coupling as [|[[f t] c] coupling IH] using rev_ind.
    { split; [apply NoDup_nil_2|]. intros p port _. split; [apply NoDup_nil_2|done]. }
    rewrite fmap_app in Hd. apply NoDup_app in Hd as (Hd & Hx & _). destruct (IH Hd) as [I1 I2]. rewrite kvecs_snoc. split; [by apply kstep_nodup|].
    intros p port Hin. destruct (I2 p port Hin) as [J1 J2]. rewrite (kstep_get key f t c pm p port Hp Hin). destruct (decide (t = (port, key))) as [->|Hne].
    - cbn [from_option Datatypes.id]. split; [by apply dict_set_nodup|]. intros f'.
      rewrite dict_get_set, dict_get_app, J2. cbn [dict_get].
      destruct (decide (f = f')) as [->|Hf].
      + rewrite decide_True by done. assert (E : dict_get (f', (port, key)) coupling = None).
        { apply dict_get_notin. intros Hc. apply (Hx _ Hc). set_solver. } by rewrite E.
      + rewrite decide_False by congruence. by destruct (dict_get _ coupling).
    - split; [done|]. intros f'. rewrite J2, dict_get_app. cbn [dict_get]. rewrite decide_False by congruence. by destruct (dict_get _ coupling).
  Qed.

  (** *** sums over the noise map *)
  Definition nm_get (nm : nmap) (a b : pk) : list (pk * pk * Obj) := default [] (default ∅ (nm !! a) !! b).
  Definition at_pair (nm : nmap) (kP kN : list (pk * C_fld)) (F : pk * pk * Obj -> C_fld -> C_fld -> C_fld) : C_fld :=
    fsum (fun z => fsum (fun w => fsum (fun v => F v z.2 w.2) (nm_get nm z.1 w.1)) kN) kP.
  Lemma noise_pair_get cp nm x nm' a b : noise_pair_insert cp nm x = Ok nm' ->
    nm_get nm' a b = nm_get nm a b ++ if decide (x.1 = (a, b)) then [x] else [].
  Proof.
    destruct x as [[p1 p2] o]. unfold noise_pair_insert. destruct (cp p1.1) as [s1|]; [|done]. destruct (decide _); [|done]. destruct (cp p2.1) as [s2|]; [|done].
    destruct (decide _); [|done]. intros [= <-]. unfold nm_get. cbn [fst]. destruct (decide (p1 = a)) as [->|Ha].
    - rewrite lookup_insert. cbn [from_option Datatypes.id]. destruct (decide (p2 = b)) as [->|Hb].
      + rewrite lookup_insert, decide_True by done. done.
      + rewrite lookup_insert_ne, decide_False by congruence. by rewrite app_nil_r.
    - rewrite lookup_insert_ne, decide_False by congruence. by rewrite app_nil_r.
  Qed.
  Lemma at_pair_insert cp nm x nm' kP kN F : noise_pair_insert cp nm x = Ok nm' -> NoDup kP.*1 -> NoDup kN.*1 ->
    (forall c, F x (0%F : C_fld) c = (0%F : C_fld)) -> (forall c, F x c (0%F : C_fld) = (0%F : C_fld)) ->
    at_pair nm' kP kN F = (at_pair nm kP kN F + F x (default 0%F (dict_get x.1.1 kP)) (default 0%F (dict_get x.1.2 kN)))%F.
  Proof.
    intros Hi HP HN F1 F2. unfold at_pair.
    transitivity (fsum (fun z => (fsum (fun w => fsum (fun v => F v z.2 w.2) (nm_get nm z.1 w.1)) kN
      + (if decide (z.1 = x.1.1) then F x z.2 (default 0 (dict_get x.1.2 kN)) else 0))%F) kP : C_fld).
    - apply fsum_ext. intros [a ca] _. cbn [fst snd].
      transitivity (fsum (fun w => (fsum (fun v => F v ca w.2) (nm_get nm a w.1) + (if decide (w.1 = x.1.2) then (if decide (a = x.1.1) then F x ca w.2 else 0) else 0))%F) kN : C_fld).
      + apply fsum_ext. intros [b cb] _. cbn [fst snd]. rewrite (noise_pair_get cp nm x nm' a b Hi), fsum_app. f_equal.
        destruct x as [[p1 p2] o]. cbn [fst snd]. destruct (decide (b = p2)) as [->|]; [destruct (decide (a = p1)) as [->|]|].
        * rewrite decide_True by done. cbn [fsum]. ring.
        * by rewrite decide_False by congruence.
        * by rewrite decide_False by congruence.
      + rewrite fsum_plus. f_equal. etransitivity; [apply (fsum_dict (K := C_fld) (fun _ c => if decide (a = x.1.1) then F x ca c else 0%F) x.1.2 kN HN)|].
        destruct (dict_get x.1.2 kN); cbn [from_option Datatypes.id]; [done|]. rewrite F2. by destruct (decide _).
    - rewrite fsum_plus. f_equal. etransitivity; [apply (fsum_dict (K := C_fld) (fun _ c => F x c (default 0%F (dict_get x.1.2 kN))) x.1.1 kP HP)|].
      by destruct (dict_get x.1.1 kP).
  Qed.
  Lemma mfor_snoc_inv {A S} (f : S -> A -> res S) l x s s' : mfor f (l ++ [x]) s = Ok s' -> exists s1, mfor f l s = Ok s1 /\ f s1 x = Ok s'.
  Proof.
    rewrite mfor_app. destruct (mfor f l s) as [s1|e]; cbn; [|done]. intros E. exists s1. split; [done|]. destruct (f s1 x); done.
  Qed.
  Lemma at_pair_map cp l nm kP kN F : noise_map cp l = Ok nm -> NoDup kP.*1 -> NoDup kN.*1 ->
    (forall v c, v ∈ l -> F v (0%F : C_fld) c = (0%F : C_fld)) -> (forall v c, v ∈ l -> F v c (0%F : C_fld) = (0%F : C_fld)) ->
    at_pair nm kP kN F = fsum (fun v => F v (default 0%F (dict_get v.1.1 kP)) (default 0%F (dict_get v.1.2 kN))) l.
  Proof.
    revert nm. induction l as [|x l IH] using rev_ind; intros nm Hm HP HN F1 F2.
    - injection Hm as <-. unfold at_pair. apply fsum_0. intros z _. apply fsum_0. intros w _. unfold nm_get. by rewrite lookup_empty.
    - apply mfor_snoc_inv in Hm as (nm1 & H1' & H2'). rewrite (at_pair_insert _ _ _ _ _ _ _ H2' HP HN); [|intros c; apply F1; set_solver|intros c; apply F2; set_solver].
      rewrite (IH nm1 H1' HP HN); [|intros v c Hv; apply F1; set_solver|intros v c Hv; apply F2; set_solver].
      rewrite fsum_app. f_equal. cbn [fsum]. ring.
  Qed.
End noise.
