(** Model of hyperion/utils/multithreading.py (ThreadSafeIter) and of the threads of hyperion/utils/queues.py
    (GeneratorQueue, use_multiprocessing=False) as interleavings of atomic steps; threads are numbered 0, 1, 2, ... *)
From Verif Require Export Base.
Open Scope list_scope.
Open Scope nat_scope.

Definition upd {B} (f : nat -> B) (t : nat) (b : B) : nat -> B := fun x => if x =? t then b else f x.

(** ** ThreadSafeIter (multithreading.py:10-28)
    The wrapped iterator keeps a position; its __next__ is not atomic: it reads the position, then moves it and returns the
    item (StopIteration at the end). [lock] says whether __next__ is called inside "with self.lock". *)
Section Iter.
Context {A : Type} (items : list A).
Inductive pc := Idle | Entered | HasRead (p : nat) | Leaving (r : option A).
Record ist := mk_ist { i_pos : nat; i_lock : option nat; i_pc : nat -> pc; i_out : list (nat * option A) }.
Definition ist_init : ist := mk_ist 0 None (fun _ => Idle) [].
Inductive istep (lock : bool) : ist -> ist -> Prop :=
| i_enter : forall s t, i_pc s t = Idle -> (lock = true -> i_lock s = None) ->
    istep lock s (mk_ist (i_pos s) (if lock then Some t else i_lock s) (upd (i_pc s) t Entered) (i_out s))
| i_read : forall s t, i_pc s t = Entered -> istep lock s (mk_ist (i_pos s) (i_lock s) (upd (i_pc s) t (HasRead (i_pos s))) (i_out s))
| i_advance : forall s t p, i_pc s t = HasRead p ->
    istep lock s (mk_ist (if p <? List.length items then S p else p) (i_lock s) (upd (i_pc s) t (Leaving (nth_error items p))) (i_out s))
| i_leave : forall s t r, i_pc s t = Leaving r ->
    istep lock s (mk_ist (i_pos s) (if lock then None else i_lock s) (upd (i_pc s) t Idle) (i_out s ++ [(t, r)])).
Inductive isteps (lock : bool) : ist -> ist -> Prop :=
| is_refl : forall s, isteps lock s s
| is_step : forall s1 s2 s3, isteps lock s1 s2 -> istep lock s2 s3 -> isteps lock s1 s3.
End Iter.
Arguments ist : clear implicits.

(** ** GeneratorQueue (queues.py:177-291), threads over a thread-safe generator
    A worker (data_generator_task, lines 211-221): check the stop event; check qsize() < max_queue_size; next(generator); put.
    When the generator is exhausted next raises StopIteration: the worker sets the stop event and ends. The consumer
    (get, lines 277-291): check is_running(); check empty(); queue.get(). The items are not None. *)
Section Queue.
Context {A : Type} (items : list A) (max_size workers : nat).
Inductive wpc := WTop | WCheck | WNext | WPut (a : A) | WDead.
Inductive cpc := CTop | CEmpty | CGet | CDone.
Record qst := mk_qst { q_pos : nat; q_queue : list A; q_stop : bool; q_w : nat -> wpc; q_c : cpc; q_got : list A }.
Definition qst_init : qst := mk_qst 0 [] false (fun _ => WTop) CTop [].
Inductive qstep : qst -> qst -> Prop :=
| w_top : forall s t, t < workers -> q_w s t = WTop ->
    qstep s (mk_qst (q_pos s) (q_queue s) (q_stop s) (upd (q_w s) t (if q_stop s then WDead else WCheck)) (q_c s) (q_got s))
| w_check : forall s t, t < workers -> q_w s t = WCheck ->
    qstep s (mk_qst (q_pos s) (q_queue s) (q_stop s) (upd (q_w s) t (if List.length (q_queue s) <? max_size then WNext else WTop)) (q_c s) (q_got s))
| w_next : forall s t a, t < workers -> q_w s t = WNext -> nth_error items (q_pos s) = Some a ->
    qstep s (mk_qst (S (q_pos s)) (q_queue s) (q_stop s) (upd (q_w s) t (WPut a)) (q_c s) (q_got s))
| w_exhausted : forall s t, t < workers -> q_w s t = WNext -> nth_error items (q_pos s) = None ->
    qstep s (mk_qst (q_pos s) (q_queue s) true (upd (q_w s) t WDead) (q_c s) (q_got s))
| w_put : forall s t a, t < workers -> q_w s t = WPut a ->
    qstep s (mk_qst (q_pos s) (q_queue s ++ [a]) (q_stop s) (upd (q_w s) t WTop) (q_c s) (q_got s))
| c_top : forall s, q_c s = CTop -> qstep s (mk_qst (q_pos s) (q_queue s) (q_stop s) (q_w s) (if q_stop s then CDone else CEmpty) (q_got s))
| c_empty : forall s, q_c s = CEmpty -> qstep s (mk_qst (q_pos s) (q_queue s) (q_stop s) (q_w s) (match q_queue s with [] => CTop | _ => CGet end) (q_got s))
| c_get : forall s a q, q_c s = CGet -> q_queue s = a :: q -> qstep s (mk_qst (q_pos s) q (q_stop s) (q_w s) CTop (q_got s ++ [a])).
Inductive qsteps : qst -> qst -> Prop :=
| qs_refl : forall s, qsteps s s
| qs_step : forall s1 s2 s3, qsteps s1 s2 -> qstep s2 s3 -> qsteps s1 s3.
End Queue.
Arguments qst : clear implicits.
