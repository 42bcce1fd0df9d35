(** Model of hyperion/torch/lr_schedulers/{lr_scheduler,exp_lr,cos_lr,factory}.py with real learning rates.
    A parameter group is its initial rate, its minimum and its current rate (base_lrs, min_lrs and
    optimizer.param_groups always have the same length, lr_scheduler.py:15-43). *)
From Coq Require Import Reals.
From Verif Require Export Base.
Open Scope list_scope.

Record group := mk_group { g_base : R; g_min : R; g_lr : R }.
Inductive kind :=
| Exp (decay_rate : R) (decay_steps hold_steps : Z)
| Cos (T T_mul : Z) (warm_restarts : bool) (gamma : R) (last_restart : Z) (num_restarts : nat).
Record sched := mk_sched { s_kind : kind; s_warmup : Z; s_epoch : Z; s_batch : Z; s_on_batch : bool; s_groups : list group }.

Definition with_kind (s : sched) (k : kind) : sched := mk_sched k (s_warmup s) (s_epoch s) (s_batch s) (s_on_batch s) (s_groups s).
Definition set_lr (s : sched) (f : group -> R) : sched :=
  mk_sched (s_kind s) (s_warmup s) (s_epoch s) (s_batch s) (s_on_batch s) (map (fun g => mk_group (g_base g) (g_min g) (f g)) (s_groups s)).

(** exp_lr.py:26-34, decay_rate > 0 *)
Definition exp_lr (rate : R) (decay hold step : Z) (g : group) : R :=
  if (step <? hold)%Z then g_base g else Rmax (g_min g) (g_base g * Rpower rate (IZR (step - hold) / IZR decay)).
(** cos_lr.py:71-76 *)
Definition cos_lr (T : Z) (gamma : R) (num : nat) (x : Z) (g : group) : R :=
  (g_min g + (gamma ^ num * g_base g - g_min g) * (1 + cos (PI / IZR T * IZR x)) / 2)%R.

(** get_lr(step): the new schedule state and the rate of each group; cos_lr.py:53-76 *)
Definition get_lr (s : sched) (step : Z) : res (kind * (group -> R)) :=
  match s_kind s with
  | Exp rate decay hold =>
    if (step <? hold)%Z then Ok (s_kind s, g_base)
    else if (decay =? 0)%Z then Err ZeroDivisionError else Ok (s_kind s, exp_lr rate decay hold step)
  | Cos T m restarts gamma last num =>
    let x := (step - last)%Z in
    let T := if (T <=? x)%Z && s_on_batch s && restarts && (s_epoch s =? 0)%Z then (x + 1)%Z else T in
    if (T <=? x)%Z then
      if restarts then
        if (T * m =? 0)%Z then Err ZeroDivisionError
        else Ok (Cos (T * m) m restarts gamma step (num + 1), cos_lr (T * m) gamma (num + 1) 0)
      else Ok (Cos T m restarts gamma last num, g_min)
    else if (T =? 0)%Z then Err ZeroDivisionError
    else Ok (Cos T m restarts gamma last num, cos_lr T gamma num x)
  end.

(** lr_scheduler.py:80-87 epoch_begin_step *)
Definition epoch_begin (s : sched) (epoch : Z) : res sched :=
  let s := mk_sched (s_kind s) (s_warmup s) epoch (s_batch s) (s_on_batch s) (s_groups s) in
  if s_on_batch s then Ok s else
  '(k, f) <- get_lr s epoch ;; Ok (set_lr (with_kind s k) f).

(** lr_scheduler.py:70-73 *)
Definition warmup_lr (warmup x : Z) (g : group) : R := ((g_base g - g_min g) / IZR warmup * IZR x + g_min g)%R.

(** lr_scheduler.py:94-105 batch_step *)
Definition batch_step (s : sched) : res sched :=
  let s := mk_sched (s_kind s) (s_warmup s) (s_epoch s) (s_batch s + 1) (s_on_batch s) (s_groups s) in
  if (s_batch s <=? s_warmup s)%Z then
    if (s_warmup s =? 0)%Z then Err ZeroDivisionError else Ok (set_lr s (warmup_lr (s_warmup s) (s_batch s)))
  else if negb (s_on_batch s) then Ok s
  else '(k, f) <- get_lr s (s_batch s) ;; Ok (set_lr (with_kind s k) f).

(** cos_lr.py:79-83 epoch_end_step (the base class does nothing); math.ceil(T/last_batch)*last_batch with exact
    division *)
Definition epoch_end (s : sched) : res sched :=
  match s_kind s with
  | Cos T m restarts gamma last num =>
    if (s_epoch s =? 0)%Z && s_on_batch s && restarts then
      if (s_batch s =? 0)%Z then Err ZeroDivisionError
      else Ok (with_kind s (Cos (- ((- T) / s_batch s) * s_batch s)%Z m restarts gamma last num))
    else Ok s
  | _ => Ok s
  end.

Inductive event := EpochBegin (e : Z) | Batch | EpochEnd.
Definition on_event (s : sched) (e : event) : res sched :=
  match e with EpochBegin k => epoch_begin s k | Batch => batch_step s | EpochEnd => epoch_end s end.
Fixpoint run (s : sched) (l : list event) : res sched :=
  match l with [] => Ok s | e :: l => s <- on_event s e ;; run s l end.

(** a new scheduler: lr_scheduler.py:15-43 with last_epoch = last_batch = -1; the rates are the initial ones *)
Definition fresh (k : kind) (warmup : Z) (on_batch : bool) (groups : list (R * R)) : sched :=
  mk_sched k warmup (-1) (-1) on_batch (map (fun bm => mk_group (fst bm) (snd bm) (fst bm)) groups).

(** factory.py:17-52 create, for the classes above (the plateau scheduler is in Plateau.v). CosineLR starts with
    last_restart=1. AdamCosineLR.__init__ calls super(AdamCosineLR, super), which raises TypeError (cos_lr.py:91). *)
Inductive lrsch := LNone | LExp | LCos | LAdamCos | LUnknown.
Definition create (t : lrsch) (decay_rate : R) (decay_steps hold_steps T T_mul : Z) (restarts : bool) (gamma : R) (warmup : Z) (on_batch : bool) (groups : list (R * R)) : res (option sched) :=
  match t with
  | LNone | LUnknown => Ok None
  | LExp => Ok (Some (fresh (Exp decay_rate decay_steps hold_steps) warmup false groups))
  | LCos => Ok (Some (fresh (Cos T T_mul restarts gamma 1 0) warmup on_batch groups))
  | LAdamCos => Err TypeError
  end.
