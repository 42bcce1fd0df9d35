(** Model of the Keras callbacks: hyperion/keras/callbacks/checkpointers.py (HypModelCheckpoint),
    keras/callbacks/lr_schedulers.py (LearningRateSteps and the constructor of ReduceLROnPlateauIncreaseOnImprovement)
    and keras/helpers/callbacks_factory.py:12-69 (create_callbacks).
    Keras itself calls on_epoch_begin(e) and on_epoch_end(e, logs) for e = initial_epoch, initial_epoch + 1, ...
    Simplifications: the values of the metrics are NaN, an infinity or a rational; saving a model writes the whole of
    its state to the file and succeeds; logs has no entry called epoch; the messages that are logged are left out;
    CSVLogger, EarlyStopping and ReduceLROnPlateau are keras' own and only their parameters are modelled. *)
From Verif Require Export Base.
From Verif Require Import Str Trainer.
From Coq Require Import QArith.
Open Scope list_scope.
Open Scope Z_scope.

(** the floats that a metric can be *)
Inductive num := NaN | MInf | Fin (q : Q) | PInf.
(** np.less; a comparison with NaN is False *)
Definition nlt (a b : num) : bool :=
  match a, b with
  | NaN, _ => false | _, NaN => false
  | MInf, MInf => false | MInf, _ => true
  | Fin _, MInf => false | Fin p, Fin q => negb (Qle_bool q p) | Fin _, PInf => true
  | PInf, _ => false
  end.

(** the dictionary logs of keras: None stands for a missing entry *)
Definition logs := string -> option num.

(** is [p] at the start of [s]; is [p] somewhere in [s]  (s.startswith(p), p in s) *)
Fixpoint starts (p s : string) : bool :=
  match p, s with
  | EmptyString, _ => true
  | String a p, String b s => Ascii.eqb a b && starts p s
  | String _ _, EmptyString => false
  end.
Fixpoint contains (p s : string) : bool :=
  starts p s || match s with EmptyString => false | String _ s => contains p s end.

(** str.format(epoch=e, **logs) for the templates of this code: literal text, doubled braces and {epoch:04d}. Any other
    replacement field is left out (KeyError stands for all the ways in which it may fail). *)
Fixpoint strip (p s : string) : option string :=
  match p, s with
  | EmptyString, s => Some s
  | String a p, String b s => if Ascii.eqb a b then strip p s else None
  | String _ _, EmptyString => None
  end.
Fixpoint format_from (fuel : nat) (s : string) (e : nat) : res string :=
  match fuel with
  | O => Ok EmptyString
  | S fuel =>
    match s with
    | EmptyString => Ok EmptyString
    | String c r =>
      if Ascii.eqb c "{" then
        match strip "{epoch:04d}" s with
        | Some r => x <- format_from fuel r e ;; Ok (fmt_04d e ++ x)%string
        | None => match strip "{{" s with
                  | Some r => x <- format_from fuel r e ;; Ok (String "{" x)
                  | None => Err KeyError
                  end
        end
      else if Ascii.eqb c "}" then
        match strip "}}" s with
        | Some r => x <- format_from fuel r e ;; Ok (String "}" x)
        | None => Err ValueError
        end
      else x <- format_from fuel r e ;; Ok (String c x)
    end
  end.
Definition format (s : string) (e : nat) : res string := format_from (String.length s) s e.

Section Checkpoint.
Context {M : Type}.   (* the state of a model *)
Definition disk := string -> option M.
Definition put (d : disk) (name : string) (m : M) : disk := fun x => if String.eqb x name then Some m else d x.

(** the fields of ModelCheckpoint that matter *)
Record checkpointer := mk_cp
  { c_path : string; c_monitor : string; c_best_only : bool; c_greater : bool; c_best : num; c_since : Z; c_period : Z }.

(** keras.callbacks.ModelCheckpoint.__init__ for the three modes *)
Definition model_checkpoint (path monitor : string) (best_only : bool) (mode : string) (period : Z) : checkpointer :=
  let greater := if String.eqb mode "min" then false else if String.eqb mode "max" then true
                 else contains "acc" monitor || starts "fmeasure" monitor in
  mk_cp path monitor best_only greater (if greater then MInf else PInf) 0 period.
(** checkpointers.py:14-20: mode='auto' and period=1 are what the parent class receives, whatever the arguments *)
Definition hyp_checkpoint (path monitor : string) (best_only : bool) (mode : string) (period : Z) : checkpointer :=
  model_checkpoint path monitor best_only "auto" 1.

(** the monitor_op of keras: np.greater or np.less *)
Definition monitor_op (c : checkpointer) (a b : num) : bool := if c_greater c then nlt b a else nlt a b.

(** checkpointers.py:23-46; [m] is what hyp_model.save writes at that moment *)
Definition on_epoch_end (c : checkpointer) (m : M) (epoch : nat) (l : logs) (d : disk) : res (checkpointer * disk) :=
  let since := c_since c + 1 in
  if since >=? c_period c then
    let c := mk_cp (c_path c) (c_monitor c) (c_best_only c) (c_greater c) (c_best c) 0 (c_period c) in
    file <- format (c_path c) epoch ;;
    if c_best_only c then
      match l (c_monitor c) with
      | None => Ok (c, d)
      | Some current =>
        if monitor_op c current (c_best c)
        then Ok (mk_cp (c_path c) (c_monitor c) (c_best_only c) (c_greater c) current (c_since c) (c_period c), put d file m)
        else Ok (c, d)
      end
    else Ok (c, put d file m)
  else Ok (mk_cp (c_path c) (c_monitor c) (c_best_only c) (c_greater c) (c_best c) since (c_period c), d).

(** a run: what the model is and what the logs are at the end of epochs e, e + 1, ... *)
Fixpoint run (c : checkpointer) (d : disk) (e : nat) (obs : list (M * logs)) : res (checkpointer * disk) :=
  match obs with
  | [] => Ok (c, d)
  | (m, l) :: obs => '(c, d) <- on_epoch_end c m e l d ;; run c d (S e) obs
  end.
End Checkpoint.

(** lr_schedulers.py:13-30. The schedule is a dictionary from epochs to rates, or (from the command line, --lr-steps with
    nargs='+') a list of strings. *)
Inductive schedule := SDict (d : list (Z * Q)) | SList (l : list string).
(** lines 23-29: an int is never equal to a string, so `epoch in schedule` is False for a list of strings *)
Definition on_epoch_begin (s : schedule) (epoch : Z) (lr : Q) : Q :=
  match s with
  | SDict d => match find (fun kv => fst kv =? epoch) d with Some (_, v) => v | None => lr end
  | SList _ => lr
  end.
(** the rate used in each of [n] epochs that start at [e] *)
Fixpoint rates (s : schedule) (e : Z) (n : nat) (lr : Q) : list Q :=
  match n with O => [] | S n => let lr := on_epoch_begin s e lr in lr :: rates s (e + 1) n lr end.

(** lr_schedulers.py:70-95: the first statement of the constructor of ReduceLROnPlateauIncreaseOnImprovement names
    ReduceLROnPlateau, that the module does not import *)
Definition increase_on_improvement {A : Type} : res A := Err NameError.

(** what create_callbacks returns *)
Inductive callback :=
| CbCheckpoint (c : checkpointer)
| CbCsv (path : string) (append : bool)
| CbEarly (monitor : string) (patience : Z) (min_delta : Q) (mode : string)
| CbSteps (s : schedule)
| CbPlateau (monitor : string) (factor : Q) (patience : Z) (mode : string) (min_delta min_lr : Q).

(** the keyword arguments of create_callbacks, callbacks_factory.py:13-21 *)
Record cb_args := mk_cb_args
  { a_save_all : bool; a_monitor : string; a_mode : string; a_patience : option Z; a_min_delta : Q;
    a_lr_steps : option schedule; a_lr_monitor : option string; a_lr_mode : string; a_lr_patience : option Z;
    a_lr_factor : Q; a_lr_red : option Q; a_lr_inc : option Q; a_min_lr : Q; a_append : bool }.

Definition opt_list {A B : Type} (o : option A) (f : A -> B) : list B := match o with Some a => [f a] | None => [] end.
(** callbacks_factory.py:12-69; [dirs] are the directories that exist (lines 23-24) *)
Definition create_callbacks (dirs : list string) (file_path : string) (a : cb_args) : res (list callback * list string) :=
  let dirs := if existsb (String.eqb file_path) dirs then dirs else file_path :: dirs in
  let lr_monitor := match a_lr_monitor a with None => a_monitor a | Some m => m end in
  let path_model := if a_save_all a then (file_path ++ "/model.{epoch:04d}")%string else (file_path ++ "/model.best")%string in
  let cbs := [CbCheckpoint (hyp_checkpoint path_model (a_monitor a) (negb (a_save_all a)) (a_mode a) 1);
              CbCsv (file_path ++ "/train.log") (a_append a)] in
  let cbs := cbs ++ opt_list (a_patience a) (fun p => CbEarly (a_monitor a) p (a_min_delta a) (a_mode a)) in
  let cbs := cbs ++ opt_list (a_lr_steps a) CbSteps in
  match a_lr_patience a with
  | None => Ok (cbs, dirs)
  | Some p =>
    match a_lr_inc a with
    | None => let factor := match a_lr_red a with Some f => f | None => a_lr_factor a end in
              Ok (cbs ++ [CbPlateau lr_monitor factor p (a_lr_mode a) (a_min_delta a) (a_min_lr a)], dirs)
    | Some _ => increase_on_improvement
    end
  end.

(** callbacks_factory.py:89-148, the values that a command line gives: [None] for an option that is not there *)
Record cb_line := mk_cb_line
  { l_save_all : bool; l_monitor : option string; l_mode : option string; l_patience : option Z; l_min_delta : option Q;
    l_lr_steps : option (list string); l_lr_monitor : option string; l_lr_mode : option string; l_lr_patience : option Z;
    l_lr_factor : option Q; l_lr_red : option Q; l_lr_inc : option Q; l_min_lr : option Q; l_append : bool }.
Definition odef {A : Type} (o : option A) (d : A) : A := match o with Some a => a | None => d end.
Definition from_line (l : cb_line) : cb_args :=
  mk_cb_args (l_save_all l) (odef (l_monitor l) "val_loss"%string) (odef (l_mode l) "auto"%string)
    (Some (odef (l_patience l) 100)) (odef (l_min_delta l) (1 # 10000)) (option_map SList (l_lr_steps l)) (l_lr_monitor l)
    (odef (l_lr_mode l) "auto"%string) (Some (odef (l_lr_patience l) 10)) (odef (l_lr_factor l) (1 # 10)) (l_lr_red l)
    (l_lr_inc l) (odef (l_min_lr l) (1 # 100000)) (l_append l).
