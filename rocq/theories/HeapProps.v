(** Theorems about the priority queues.  C15, C16. *)
From stdpp Require Import base tactics list numbers.
From Verif Require Import Py HeapModel HeapSpec HeapProofs.

(** C15.  For every strict weak order, every initial content and every history of
    operations, each answer and each resulting content is one the abstract bag
    allows: nothing is lost or invented, the answers of pop/replace/pushpop/peek
    are least elements, and an empty queue raises Empty (replace: IndexError). *)
Theorem C15_history {A} (lt : A -> A -> bool) (iterable : list A) (ops : list pq_op) :
  weak_order lt ->
  exists h, pq_init lt iterable = Ok h /\
    pq_history lt iterable ops (pq_run (pq_step lt) h ops).1 (pq_run (pq_step lt) h ops).2.
Proof. exact (fun W => pq_history_ok lt W iterable ops). Qed.
Print Assumptions C15_history.

(** C15 (draining).  After any history, popping until empty yields exactly the
    content, in order. *)
Theorem C15_drain {A} (lt : A -> A -> bool) (iterable : list A) (ops : list pq_op) h outs h' :
  weak_order lt ->
  pq_init lt iterable = Ok h -> pq_run (pq_step lt) h ops = (outs, h') ->
  exists items, pq_run (pq_step lt) h' (replicate (length h') Pop) = (Item <$> items, []) /\
    items ≡ₚ h' /\ in_order lt items.
Proof. exact (fun W => drain_sorted lt W iterable ops h outs h'). Qed.
Print Assumptions C15_drain.

(** pairs (cost, node) compared by cost only: a strict weak order with ties *)
Definition cost_lt (x y : nat * nat) : bool := bool_decide (x.1 < y.1).
Example cost_lt_weak : weak_order cost_lt.
Proof.
  unfold cost_lt. split.
  - intros x y. rewrite bool_decide_eq_true, bool_decide_eq_false. lia.
  - intros x y z. rewrite !bool_decide_eq_false. lia.
Qed.
Example drain_example :
  exists h, pq_init cost_lt [(5, 1); (3, 2); (8, 3); (3, 4)] = Ok h /\
    (pq_run (pq_step cost_lt) h [Push (1, 9); Pop; Replace (4, 4); PushPop (0, 0); Pop; Pop; Pop; Pop; Pop]).1
    = [Nothing; Item (1, 9); Item (3, 4); Item (0, 0); Item (3, 2); Item (4, 4); Item (5, 1); Item (8, 3);
       Raised EmptyError].
Proof. eexists. split; vm_compute; reflexivity. Qed.

(** C16 (agreeing part).  Histories without pushpop, truth tests and len() give the
    same answers and content on the thread-safe queue, run by one thread. *)
Theorem C16_threadsafe_partial {A} (lt : A -> A -> bool) (h : list A) (ops : list pq_op) :
  Forall (fun o => (forall x, o <> PushPop x) /\ o <> Bool /\ o <> Len) ops ->
  pq_run (tpq_step lt) h ops = pq_run (pq_step lt) h ops.
Proof. exact (tpq_run_same lt ops h). Qed.
Print Assumptions C16_threadsafe_partial.

(** C16 (refutation).  On the thread-safe queue pushpop always raises
    AttributeError and an empty queue is true. *)
Theorem C16_threadsafe_refuted {A} (lt : A -> A -> bool) :
  (forall (h : list A) (x : A), (tpq_step lt h (PushPop x)).1 = Raised AttributeError) /\
  (tpq_step lt [] Bool).1 <> (pq_step lt [] Bool).1.
Proof. exact (tpq_differs lt). Qed.
Print Assumptions C16_threadsafe_refuted.
Example threadsafe_example :
  Forall (fun o : pq_op => (forall x : nat * nat, o <> PushPop x) /\ o <> Bool /\ o <> Len) [Push (1, 1); Pop; Peek].
Proof. repeat constructor; done. Qed.
