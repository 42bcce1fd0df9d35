(** Model of AudioWriter, hyperion/io/audio_writer.py:22-116, and of the file formats of soundfile that it asks for. Samples are exact
    rationals: float32 and float64 do not round, and NaN and infinities do not exist. One channel. A failed write ends the program of
    the user, as an exception does; what is on the disk then is part of the result. *)
From Coq Require Import ZArith QArith List Bool Arith String Ascii.
From Verif Require Import Base Str Kaldi Audio.
Import ListNotations.
Open Scope list_scope. Open Scope Z_scope.

(** audio_writer.py:22-27 *)
Definition subtype_to_npdtype : list (string * string) :=
  [("PCM_32", "int32"); ("ALAW", "int16"); ("IMA_ADPCM", "int16"); ("FLOAT", "float32"); ("PCM_16", "int16"); ("DOUBLE", "float64");
   ("MS_ADPCM", "int16"); ("ULAW", "int16"); ("PCM_U8", "uint8"); ("PCM_S8", "int8"); ("VORBIS", "float32"); ("GSM610", "int16");
   ("G721_32", "int16"); ("PCM_24", "int24")]%string.
Definition npdtype (subtype : string) : option string := option_map snd (find (fun p => String.eqb (fst p) subtype) subtype_to_npdtype).

(** what a sound file holds: the numbers that were handed to libsndfile, integers of a width or floating-point numbers *)
Inductive content := Ints (bits : Z) (l : list Z) | Floats (l : list Q).
Record sndfile := mk_snd { f_sub : string; f_rate : Z; f_content : content }.
Definition disk := string -> option sndfile.
Definition store (d : disk) (p : string) (f : sndfile) : disk := fun q => if String.eqb q p then Some f else d q.

(** re.sub('/', '-', key) *)
Fixpoint dashes (s : string) : string :=
  match s with EmptyString => EmptyString | String c s => String (if Ascii.eqb c "/" then "-"%char else c) (dashes s) end.

(** os.path.splitext(p)[1]: from the last dot of the last component, if a character other than a dot comes before it there *)
Fixpoint last_part (s : string) : string :=
  match s with EmptyString => EmptyString | String c r => if str_in "/" r then last_part r else if Ascii.eqb c "/" then r else s end.
Fixpoint dot_suffix (s : string) : string :=
  match s with EmptyString => EmptyString | String c r => if str_in "." r then dot_suffix r else if Ascii.eqb c "." then s else EmptyString end.
Fixpoint skip_dots (s : string) : string :=
  match s with EmptyString => EmptyString | String c r => if Ascii.eqb c "." then skip_dots r else s end.
Definition ext_of (p : string) : string := dot_suffix (skip_dots (last_part p)).

Section Writer.
Variable wrap : Z -> Q -> Z.                  (* astype of a value that does not fit (C leaves it open) *)
Variable check_format : string -> string -> bool.     (* sf.check_format(format, subtype) *)
Variable default_subtype : string -> res string.      (* sf.default_subtype(format) *)

(** the state: the script is None when there is no script path *)
Record writer := mk_writer { w_dir : string; w_fmt : string; w_sub : string; w_sep : string; w_script : option string; w_disk : disk }.

(** __init__, audio_writer.py:39-59; opening the script empties it *)
Definition w_open (dir : string) (script : bool) (fmt : string) (subtype : option string) (sep : string) (d : disk) : res writer :=
  if negb (existsb (String.eqb ("." ++ fmt)) valid_ext) then Err AssertionError else
  sub <- match subtype with
         | None => default_subtype fmt
         | Some s => if check_format fmt s then Ok s else Err AssertionError
         end ;;
  Ok (mk_writer dir fmt sub sep (if script then Some ""%string else None) d).

(** astype to an integer of so many bits: truncation *)
Definition to_int (bits : Z) (q : Q) : Z :=
  let z := Z.quot (Qnum q) (Zpos (Qden q)) in
  if (- 2 ^ (bits - 1) <=? z) && (z <? 2 ^ (bits - 1)) then z else wrap bits q.
Definition to_uint8 (q : Q) : Z :=
  let z := Z.quot (Qnum q) (Zpos (Qden q)) in if (0 <=? z) && (z <? 256) then z else wrap 8 q.
(** data[i].astype(dtype): int24 is no type of numpy *)
Definition astype (dtype : string) (x : list Q) : res content :=
  if String.eqb dtype "int16" then Ok (Ints 16 (map (to_int 16) x))
  else if String.eqb dtype "int32" then Ok (Ints 32 (map (to_int 32) x))
  else if String.eqb dtype "int8" then Ok (Ints 8 (map (to_int 8) x))
  else if String.eqb dtype "uint8" then Ok (Ints 8 (map to_uint8 x))
  else if String.eqb dtype "float32" || String.eqb dtype "float64" then Ok (Floats x)
  else Err TypeError.
(** sf.write: the file is created, then the samples are written; libsndfile takes int16, int32, float32 and float64 *)
Definition sf_write (w : writer) (path : string) (c : content) (fs : Z) : writer * res unit :=
  if check_format (w_fmt w) (w_sub w) then
    let put := fun c => mk_writer (w_dir w) (w_fmt w) (w_sub w) (w_sep w) (w_script w) (store (w_disk w) path (mk_snd (w_sub w) fs c)) in
    match c with
    | Ints 16 _ | Ints 32 _ | Floats _ => (put c, Ok tt)
    | Ints b _ => (put (Ints b []), Err TypeError)
    end
  else (w, Err ValueError).

Definition out_file (w : writer) (key : string) : string := (w_dir w ++ "/" ++ dashes key ++ "." ++ w_fmt w)%string.
Definition add_line (w : writer) (key path : string) : writer :=
  mk_writer (w_dir w) (w_fmt w) (w_sub w) (w_sep w) (option_map (fun t => (t ++ key ++ w_sep w ++ path ++ nl_str)%string) (w_script w)) (w_disk w).

(** fs: one number or one per key *)
Inductive rates := OneRate (fs : Z) | RateList (l : list Z).
Definition rate_at (r : rates) (i : nat) : res Z := match r with OneRate f => Ok f | RateList l => match nth_error l i with Some f => Ok f | None => Err IndexError end end.

(** one turn of the loop, audio_writer.py:105-116 *)
Definition write1 (w : writer) (dtype : string) (r : rates) (data : list (list Q)) (i : nat) (key : string) : writer * res unit :=
  if negb (is_token key) then (w, Err AssertionError) else
  match rate_at r i with Err e => (w, Err e) | Ok fs =>
  match nth_error data i with None => (w, Err IndexError) | Some x =>
  match astype dtype x with Err e => (w, Err e) | Ok c =>
  match sf_write w (out_file w key) c fs with (w, Err e) => (w, Err e) | (w, Ok _) => (add_line w key (out_file w key), Ok tt) end end end end.
Fixpoint write_from (w : writer) (dtype : string) (r : rates) (data : list (list Q)) (i : nat) (keys : list string) : writer * res unit :=
  match keys with
  | [] => (w, Ok tt)
  | k :: keys => match write1 w dtype r data i k with (w, Err e) => (w, Err e) | (w, Ok _) => write_from w dtype r data (S i) keys end
  end.
(** write, audio_writer.py:88-116 *)
Definition write (w : writer) (keys : list string) (data : list (list Q)) (r : rates) : writer * res unit :=
  match npdtype (w_sub w) with None => (w, Err AssertionError) | Some dtype => write_from w dtype r data 0 keys end.
(** a sequence of calls, until one fails *)
Fixpoint writes (w : writer) (calls : list (list string * list (list Q) * rates)) : writer * res unit :=
  match calls with
  | [] => (w, Ok tt)
  | (keys, data, r) :: calls => match write w keys data r with (w, Err e) => (w, Err e) | (w, Ok _) => writes w calls end
  end.
End Writer.

(** sf.read(path, dtype=float32), audio_reader.py:92: integers are divided by the full scale; what the lossy formats give back is [lossy] *)
Definition sf_read (lossy : sndfile -> list Q) (d : disk) (path : string) : res (list Q * Z) :=
  match d path with
  | None => Err RuntimeErr
  | Some f => Ok (match f_content f with
                  | Ints b l => if String.eqb (f_sub f) "PCM_16" || String.eqb (f_sub f) "PCM_32" then map (fun z => inject_Z z / inject_Z (2 ^ (b - 1)))%Q l else lossy f
                  | Floats l => if String.eqb (f_sub f) "FLOAT" || String.eqb (f_sub f) "DOUBLE" then l else lossy f
                  end, f_rate f)
  end.
(** wav_scale=2**15, audio_reader.py:34, 93 *)
Definition wav_scale (q : Q) : Q := (inject_Z 32768 * q)%Q.
