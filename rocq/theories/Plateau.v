(** Model of hyperion/torch/lr_schedulers/red_lr_on_plateau.py (and the warm-up of lr_scheduler.py) with exact
    rationals. NaN metrics are not modelled. *)
From Coq Require Import QArith.
From Verif Require Export Base.
Open Scope list_scope.

Inductive pmode := PMin | PMax.
Inductive tmode := TRel | TAbs.
(** self.best: mode_worse (inf or -inf) or a value *)
Inductive pbest := Worst | Best (q : Q).

Definition qltb (a b : Q) : bool := negb (Qle_bool b a).

(** red_lr_on_plateau.py:135-148 _cmp. With best = inf in rel mode the bound is inf * (1 - threshold): inf, -inf or
    NaN according to the sign of 1 - threshold; likewise for max with 1 + threshold. *)
Definition is_better (m : pmode) (t : tmode) (th : Q) (a : Q) (best : pbest) : bool :=
  match m, t, best with
  | PMin, TRel, Best b => qltb a (b * (1 - th))
  | PMin, TRel, Worst => qltb 0 (1 - th)
  | PMin, TAbs, Best b => qltb a (b - th)
  | PMin, TAbs, Worst => true
  | PMax, TRel, Best b => qltb (b * (th + 1)) a
  | PMax, TRel, Worst => qltb 0 (th + 1)
  | PMax, TAbs, Best b => qltb (b + th) a
  | PMax, TAbs, Worst => true
  end.

Record pcfg := mk_pcfg { p_mode : pmode; p_tmode : tmode; p_th : Q; p_factor : Q; p_patience : Z; p_cooldown : Z; p_eps : Q; p_min : list Q; p_warmup : Z; p_base : list Q }.
Record pstate := mk_ps { ps_best : pbest; ps_bad : Z; ps_cool : Z; ps_batch : Z; ps_lr : list Q }.

(** red_lr_on_plateau.py:54-87: a factor of one or more is rejected *)
Definition plateau_init (c : pcfg) : res pstate :=
  if Qle_bool 1 (p_factor c) then Err ValueError else Ok (mk_ps Worst 0 0 (-1) (p_base c)).

(** red_lr_on_plateau.py:122-129 _reduce_lr for one group *)
Definition reduce_one (factor eps : Q) (mn lr : Q) : Q :=
  let new := if Qle_bool mn (lr * factor) then (lr * factor)%Q else mn in
  if qltb eps (lr - new) then new else lr.
Fixpoint reduce_lr (factor eps : Q) (mins lrs : list Q) : list Q :=
  match mins, lrs with m :: mins, l :: lrs => reduce_one factor eps m l :: reduce_lr factor eps mins lrs | _, lrs => lrs end.

(** red_lr_on_plateau.py:104-119 epoch_end_step with the monitored value; also returns whether _reduce_lr was called *)
Definition epoch_end (c : pcfg) (s : pstate) (current : Q) : pstate * bool :=
  let '(best, bad) := if is_better (p_mode c) (p_tmode c) (p_th c) current (ps_best s) then (Best current, 0%Z) else (ps_best s, ps_bad s + 1)%Z in
  let '(cool, bad) := if (0 <? ps_cool s)%Z then (ps_cool s - 1, 0)%Z else (ps_cool s, bad) in
  if (p_patience c <? bad)%Z
  then (mk_ps best 0 (p_cooldown c) (ps_batch s) (reduce_lr (p_factor c) (p_eps c) (p_min c) (ps_lr s)), true)
  else (mk_ps best bad cool (ps_batch s) (ps_lr s), false).

(** lr_scheduler.py:70-73 get_warmup_lr for one group *)
Definition warmup_one (warmup x : Z) (base mn : Q) : Q := ((base - mn) / inject_Z warmup * inject_Z x + mn)%Q.
Fixpoint warmup_lr (warmup x : Z) (base mins : list Q) : list Q :=
  match base, mins with b :: base, m :: mins => warmup_one warmup x b m :: warmup_lr warmup x base mins | _, _ => [] end.

(** red_lr_on_plateau.py:90-95 batch_step: division by warmup_steps = 0 raises ZeroDivisionError *)
Definition plateau_batch (c : pcfg) (s : pstate) : res pstate :=
  let b := (ps_batch s + 1)%Z in
  if (b <=? p_warmup c)%Z then
    if (p_warmup c =? 0)%Z && negb (Nat.eqb (List.length (p_base c)) 0) then Err ZeroDivisionError else
    Ok (mk_ps (ps_best s) (ps_bad s) (ps_cool s) b (warmup_lr (p_warmup c) b (p_base c) (p_min c)))
  else Ok (mk_ps (ps_best s) (ps_bad s) (ps_cool s) b (ps_lr s)).

(** the states and reductions over the epochs *)
Fixpoint epochs_run (c : pcfg) (s : pstate) (vals : list Q) : pstate * list bool :=
  match vals with
  | [] => (s, [])
  | v :: vals => let (s1, r) := epoch_end c s v in let (s2, rs) := epochs_run c s1 vals in (s2, r :: rs)
  end.
