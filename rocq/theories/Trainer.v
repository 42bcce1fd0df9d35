(** Model of hyperion/torch/torch_trainer.py:22-194 (TorchTrainer) and loggers/csv_logger.py (CSVLogger), the default logger.
    What one epoch computes is an arbitrary function of the epoch number and of the states of the model, the optimizer, the
    loss and the scheduler: [work] is lr_scheduler.epoch_begin_step, train_epoch and validation_epoch (fit lines 58-65), and
    [finish] is lr_scheduler.epoch_end_step (lines 70-71). Simplifications: the epoch depends on nothing else (no
    unseeded random source), state_dict/load_state_dict copy the whole state of an object, and the process can die
    between any two writes to the disk and in the middle of torch.save, which leaves an unreadable file. *)
From Verif Require Export Base.
From Verif Require Import Str.
Open Scope list_scope.

(** '%04d' % n *)
Fixpoint zeros (n : nat) : string := match n with O => EmptyString | S n => String "0" (zeros n) end.
Definition fmt_04d (n : nat) : string := let s := fmt_d (Z.of_nat n) in (zeros (4 - String.length s) ++ s)%string.
(** torch_trainer.py:167, 190 *)
Definition ckpt_path (exp_path : string) (n : nat) : string := (exp_path ++ "/model_ep" ++ fmt_04d n ++ ".pth")%string.

Section Trainer.
Context {Mod Opt Loss Sch Logs : Type}.
Notation parts := (Mod * Opt * Loss * option Sch)%type.
Variable work : nat -> parts -> res (parts * Logs).
Variable finish : Logs -> parts -> res parts.
Variable exp_path : string.

(** the mutable fields of the trainer, lines 26-46 *)
Record trainer := mk_trainer { t_epoch : nat; t_model : Mod; t_optim : Opt; t_loss : Loss; t_sched : option Sch; t_append : bool }.
Definition parts_of (t : trainer) : parts := (t_model t, t_optim t, t_loss t, t_sched t).
Definition with_parts (t : trainer) (e : nat) (p : parts) : trainer :=
  match p with (m, o, l, s) => mk_trainer e m o l s (t_append t) end.

(** line 149, checkpoint: lr_scheduler_state_dict is there when there is a scheduler *)
Record ckpt := mk_ckpt { k_epoch : nat; k_model : Mod; k_optim : Opt; k_loss : Loss; k_sched : option Sch; k_logs : option Logs }.
Inductive file := Broken | Saved (c : ckpt).
(** the experiment directory: the checkpoints and the rows (epoch column) of train.log *)
Record disk := mk_disk { d_files : string -> option file; d_log : list nat }.
Definition put (d : disk) (name : string) (f : file) : disk :=
  mk_disk (fun x => if String.eqb x name then Some f else d_files d x) (d_log d).

(** lines 24-46, __init__ with the default loggers (line 139: append=self.cur_epoch>0) *)
Definition construct (p : parts) (cur_epoch : nat) : trainer :=
  match p with (m, o, l, s) => mk_trainer cur_epoch m o l s (0 <? cur_epoch)%nat end.

(** lines 148-161 *)
Definition checkpoint (t : trainer) (logs : option Logs) : ckpt := mk_ckpt (t_epoch t) (t_model t) (t_optim t) (t_loss t) (t_sched t) logs.

(** lines 172-184; torch.load of a truncated file raises *)
Definition load_checkpoint (t : trainer) (f : file) : res (trainer * option Logs) :=
  match f with
  | Broken => Err RuntimeErr
  | Saved c =>
    match t_sched t with
    | None => Ok (mk_trainer (k_epoch c) (k_model c) (k_optim c) (k_loss c) None (t_append t), k_logs c)
    | Some _ => match k_sched c with
                | None => Err KeyError
                | Some s => Ok (mk_trainer (k_epoch c) (k_model c) (k_optim c) (k_loss c) (Some s) (t_append t), k_logs c)
                end
    end
  end.
(** lines 187-194: epochs, epochs - 1, ..., 1 *)
Fixpoint load_last_checkpoint (epochs : nat) (t : trainer) (d : disk) : res (trainer * option Logs) :=
  match epochs with
  | O => Ok (t, None)
  | S e => match d_files d (ckpt_path exp_path epochs) with Some f => load_checkpoint t f | None => load_last_checkpoint e t d end
  end.

(** lines 56-73, the loop over range(cur_epoch, epochs). The result is the list of the contents of the directory after
    each write, in order, and the trainer at the end or the exception. torch.save (line 169) first creates an incomplete file. *)
Fixpoint epoch_loop (es : list nat) (t : trainer) (d : disk) : list disk * res trainer :=
  match es with
  | [] => ([], Ok t)
  | e :: es =>
    match work e (parts_of t) with
    | Err x => ([], Err x)
    | Ok (p, logs) =>
      let t := with_parts t (t_epoch t + 1) p in
      let d1 := mk_disk (d_files d) (d_log d ++ [(e + 1)%nat]) in (* csv_logger.py:56-74 *)
      match finish logs (parts_of t) with
      | Err x => ([d1], Err x)
      | Ok p =>
        let t := with_parts t (t_epoch t) p in
        let name := ckpt_path exp_path (t_epoch t) in
        let d2 := put d1 name Broken in
        let d3 := put d1 name (Saved (checkpoint t (Some logs))) in
        let '(tr, r) := epoch_loop es t d3 in (d1 :: d2 :: d3 :: tr, r)
      end
    end
  end.

(** fit, lines 49-73. csv_logger.py:38-52, on_train_begin: with append it calls os.path.exist, which does not exist;
    without, it opens train.log with mode 'w'. *)
Definition fit (epochs : nat) (t : trainer) (d : disk) : list disk * res trainer :=
  if t_append t then ([], Err AttributeError) else
  let d := mk_disk (d_files d) [] in
  let '(tr, r) := epoch_loop (seq (t_epoch t) (epochs - t_epoch t)) t d in (d :: tr, r).

(** the life of a training process: build the trainer around newly initialised objects, restore, train *)
Definition process (epochs : nat) (init : parts) (d : disk) : list disk * res trainer :=
  match load_last_checkpoint epochs (construct init 0) d with
  | Err x => ([], Err x)
  | Ok (t, _) => fit epochs t d
  end.
End Trainer.
Arguments trainer : clear implicits.
Arguments ckpt : clear implicits.
Arguments file : clear implicits.
Arguments disk : clear implicits.
