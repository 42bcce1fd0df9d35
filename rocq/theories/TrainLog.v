(** Model of hyperion/torch/loggers/csv_logger.py:17-80 (CSVLogger), prog_logger.py:18-141 (ProgLogger) and loggers.py:11-121 (LoggerList), with the rows written by
    csv.DictWriter in the excel dialect. Log values are the texts the csv module writes for them. Files are opened by one logger at a time; a row is
    in the file once flushed. The clock is an argument. In ProgLogger the text of the line is replaced by the numbers in it; the metric values, which
    are formatted with %.6f, are left out, and percentages are exact quotients. *)
From Coq Require Import ZArith QArith List Bool Ascii String.
From Verif Require Import Base Str.
Import ListNotations.
Open Scope list_scope. Open Scope Z_scope.

(** ** csv.writer, excel dialect with another delimiter: fields quoted when needed, quotes doubled, lines ended by CR LF *)
Definition quote : ascii := chr 34.
Definition special (d c : ascii) : bool := Ascii.eqb c d || Ascii.eqb c quote || Ascii.eqb c cr || Ascii.eqb c nl.
Fixpoint doubled (s : string) : string :=
  match s with EmptyString => EmptyString | String c s => if Ascii.eqb c quote then String quote (String quote (doubled s)) else String c (doubled s) end.
Definition quoted (s : string) : string := String quote (doubled s ++ String quote "").
Definition csv_field (d : ascii) (s : string) : string := if str_forallb (fun c => negb (special d c)) s then s else quoted s.
Fixpoint csv_join (d : ascii) (l : list string) : string :=
  match l with [] => "" | [s] => csv_field d s | s :: l => (csv_field d s ++ String d (csv_join d l))%string end.
Definition csv_row (d : ascii) (l : list string) : string :=
  ((match l with [s] => if (s =? "")%string then quoted s else csv_field d s | _ => csv_join d l end) ++ String cr (String nl ""))%string.

(** ** CSVLogger *)
Record fs := mk_fs { f_dirs : list string; f_files : string -> option string }.
Definition put (f : fs) (p t : string) : fs := mk_fs (f_dirs f) (fun q => if (q =? p)%string then Some t else f_files f q).
(** os.path.dirname *)
Fixpoint has_slash (s : string) : bool := match s with EmptyString => false | String c s => Ascii.eqb c "/" || has_slash s end.
Fixpoint head_of (s : string) : string := match s with EmptyString => EmptyString | String c t => if has_slash s then String c (head_of t) else EmptyString end.
Definition dirname (p : string) : string := let h := head_of p in if str_forallb (fun c => Ascii.eqb c "/") h then h else rstrip_if (fun c => Ascii.eqb c "/") h.

Definition logs := list (string * string).
Record csvlog := mk_csv { l_path : string; l_sep : string; l_append : bool; l_header : bool; l_keys : option (list string); l_writer : bool; l_epoch : Z }.
(** __init__, csv_logger.py:26-34 *)
Definition csv_new (path sep : string) (append : bool) : csvlog := mk_csv path sep append true None false 0.
(** on_train_begin, csv_logger.py:38-52. os.path.exist does not exist. *)
Definition csv_train_begin (l : csvlog) (f : fs) : res fs :=
  let d := dirname (l_path l) in
  f <- (if (d =? "")%string then Err IOErr else if existsb (String.eqb d) (f_dirs f) then Ok f else Ok (mk_fs (d :: f_dirs f) (f_files f))) ;;
  if l_append l then Err AttributeError else
  Ok (if l_header l then put f (l_path l) "" else put f (l_path l) (match f_files f (l_path l) with Some t => t | None => "" end)).
(** Logger.on_epoch_begin, loggers.py:114-121 *)
Definition csv_epoch_begin (l : csvlog) (e : Z) : csvlog := mk_csv (l_path l) (l_sep l) (l_append l) (l_header l) (l_keys l) (l_writer l) e.
Definition log_get (lg : logs) (k : string) : res string := match find (fun p => (fst p =? k)%string) lg with Some p => Ok (snd p) | None => Err KeyError end.
(** on_epoch_end, csv_logger.py:56-74 *)
Definition csv_epoch_end (l : csvlog) (lg : logs) (f : fs) : res (csvlog * fs) :=
  let keys := match l_keys l with Some k => k | None => map fst lg end in
  match l_sep l with
  | String d EmptyString =>
    let old := match f_files f (l_path l) with Some t => t | None => EmptyString end in
    let head := if l_writer l then EmptyString else if l_header l then csv_row d ("epoch"%string :: keys) else EmptyString in
    vals <- mapM (log_get lg) keys ;;
    Ok (mk_csv (l_path l) (l_sep l) (l_append l) (l_header l) (Some keys) true (l_epoch l),
        put f (l_path l) (old ++ head ++ csv_row d (fmt_d (l_epoch l + 1) :: vals))%string)
  | _ => Err TypeError
  end.
(** the calls of TorchTrainer.fit (torch_trainer.py:49-73) for the epochs e, e+1, ... *)
Fixpoint csv_epochs (l : csvlog) (e : Z) (ls : list logs) (f : fs) : res (csvlog * fs) :=
  match ls with
  | [] => Ok (l, f)
  | lg :: ls => '(l, f) <- csv_epoch_end (csv_epoch_begin l e) lg f ;; csv_epochs l (e + 1) ls f
  end.
Definition csv_train (path sep : string) (append : bool) (e : Z) (ls : list logs) (f : fs) : res (csvlog * fs) :=
  let l := csv_new path sep append in f <- csv_train_begin l f ;; csv_epochs l e ls f.

(** ** ProgLogger *)
Record prog := mk_prog { p_interval : Z; p_epochs : Z; p_samples : Z; p_batches : Z; p_epoch : Z; p_batch : Z; p_sample : Z }.
Record line := mk_line { n_epoch : Z; n_epochs : Z; n_elapsed : Q; n_eta : option Q; n_batch : Z; n_batch_of : option (Z * Z); n_sample : option (Z * option (Z * Z)) }.
(** on_train_begin and on_epoch_begin, prog_logger.py:39-58; missing arguments are 0 *)
Definition prog_epoch_begin (p : prog) (epochs epoch samples batches : Z) : prog := mk_prog (p_interval p) epochs samples batches epoch 0 0.
(** estimate_epoch_time, prog_logger.py:110-126: et seconds after the beginning of the epoch *)
Definition estimate (p : prog) (et : Q) : res (option Q) :=
  if 0 <? p_batches p then (if p_batch p =? 0 then Err ZeroDivisionError else Ok (Some (et / inject_Z (p_batch p) * inject_Z (p_batches p) - et)%Q))
  else if 0 <? p_samples p then (if p_sample p =? 0 then Err ZeroDivisionError else Ok (Some (et / inject_Z (p_sample p) * inject_Z (p_samples p) - et)%Q))
  else Ok None.
(** on_batch_begin and on_batch_end, prog_logger.py:61-97 *)
Definition prog_batch (p : prog) (batch size : Z) (et : Q) : res (prog * list line) :=
  let p := mk_prog (p_interval p) (p_epochs p) (p_samples p) (p_batches p) (p_epoch p) batch (p_sample p + size) in
  if p_interval p =? 0 then Err ZeroDivisionError else
  if batch mod p_interval p =? 0 then
    eta <- estimate p et ;;
    Ok (p, [mk_line (p_epoch p + 1) (p_epochs p) et eta batch
              (if 0 <? p_batches p then Some (p_batches p, 100 * batch / p_batches p) else None)
              (if 0 <? p_sample p then Some (p_sample p, if 0 <? p_samples p then Some (p_samples p, 100 * p_sample p / p_samples p) else None) else None)])
  else Ok (p, []).
Fixpoint prog_batches (p : prog) (batch : Z) (bs : list (Z * Q)) : res (prog * list line) :=
  match bs with
  | [] => Ok (p, [])
  | (size, et) :: bs => '(p, a) <- prog_batch p batch size et ;; '(p, b) <- prog_batches p (batch + 1) bs ;; Ok (p, a ++ b)
  end.

(** sec2str, prog_logger.py:130-141, on whole seconds; time.gmtime gives the day of the month of the date t seconds after 1 January 1970 *)
Definition leap (y : Z) : bool := (y mod 4 =? 0) && (negb (y mod 100 =? 0) || (y mod 400 =? 0)).
Definition months (y : Z) : list Z := [31; if leap y then 29 else 28; 31; 30; 31; 30; 31; 31; 30; 31; 30; 31].
Fixpoint in_months (ms : list Z) (d : Z) : Z + Z := match ms with [] => inr d | m :: ms => if d <? m then inl (d + 1) else in_months ms (d - m) end.
Fixpoint mday (fuel : nat) (y d : Z) : Z :=
  match in_months (months y) d with inl k => k | inr r => match fuel with O => r + 1 | S fuel => mday fuel (y + 1) r end end.
Definition sec2str (t : Z) : string :=
  let day := mday (Z.to_nat (t / 86400)) 1970 (t / 86400) - 1 in
  let h := t / 3600 mod 24 in let m := t / 60 mod 60 in let s := t mod 60 in
  (if (0 <? day)%Z then fmt_d day ++ ":" ++ fmt_d h ++ ":" ++ fmt_d m ++ ":" ++ fmt_d s
   else if (0 <? h)%Z then fmt_d h ++ ":" ++ fmt_d m ++ ":" ++ fmt_d s
   else if (0 <? m)%Z then fmt_d m ++ ":" ++ fmt_d s
   else fmt_d s ++ "s")%string.

(** ** LoggerList, loggers.py:25-93: each event goes to the loggers in turn, the first exception stops it *)
Section LList.
Context {S Ev Msg : Type} (step : S -> Ev -> res (S * list Msg)).
Fixpoint broadcast (ls : list S) (e : Ev) : res (list S * list Msg) :=
  match ls with
  | [] => Ok ([], [])
  | s :: ls => '(s, a) <- step s e ;; '(ls, b) <- broadcast ls e ;; Ok (s :: ls, a ++ b)
  end.
Fixpoint broadcasts (ls : list S) (es : list Ev) : res (list S * list Msg) :=
  match es with [] => Ok (ls, []) | e :: es => '(ls, a) <- broadcast ls e ;; '(ls, b) <- broadcasts ls es ;; Ok (ls, a ++ b) end.
End LList.
