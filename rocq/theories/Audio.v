(** Model of the audio readers, hyperion/io/audio_reader.py:23-328, of CopyFeats, hyperion/io/copy_feats.py:17-82, and of H5Merger,
    hyperion/io/h5_merger.py:17-44. sf.read and the shell command of a pipe are arbitrary functions from a path or command to the samples and the
    sampling frequency (an integer); [scale] is the multiplication by wav_scale. Times are exact rationals. *)
From Coq Require Import ZArith QArith List Bool Arith String Ascii.
From Verif Require Import Base ListUtils Mat Str Segments H5.
Import ListNotations.
Open Scope list_scope. Open Scope Z_scope.

(** audio_reader.py:23; the entry w64 has no dot *)
Definition valid_ext : list string :=
  [".wav"; ".flac"; ".ogg"; ".au"; ".avr"; ".caf"; ".htk"; ".iff"; ".mat"; ".mpc"; ".oga"; ".pvf"; ".rf64"; ".sd2"; ".sds"; ".sf"; ".voc"; "w64"; ".wve"; ".xi"]%string.

(** a[lo:hi] with Python's treatment of negative bounds *)
Definition py_slice {X} (a : list X) (lo hi : Z) : list X :=
  let n := Z.of_nat (len a) in
  let l := slice_ix n lo in let h := slice_ix n hi in
  firstn (Z.to_nat (h - l)) (skipn (Z.to_nat l) a).
(** int(t * fs): truncation towards zero *)
Definition sample_of (fs : Z) (t : Q) : Z := Z.quot (Qnum t * fs) (Zpos (Qden t)).

Section Audio.
Context {X : Type}.
Variable scale : X -> X.
Variable sound pipe : string -> res (list X * Z).
Variable ext_of : string -> string.       (* os.path.splitext(w)[1] *)

Notation wave := (list X * Z)%type.
Definition scaled (w : wave) : wave := (map scale (fst w), snd w).

Fixpoint last_char (s : string) : option ascii :=
  match s with EmptyString => None | String c EmptyString => Some c | String _ s => last_char s end.
Fixpoint but_last (s : string) : string :=
  match s with EmptyString => EmptyString | String c EmptyString => EmptyString | String c s => String c (but_last s) end.

(** read_wavspecifier, audio_reader.py:76-97, and read_pipe, 101-114 *)
Definition read_wavspecifier (w : string) : res wave :=
  let w := rstrip (lstrip w) in
  match last_char w with
  | None => Err IndexError
  | Some c => if Ascii.eqb c "|" then x <- pipe (but_last w) ;; Ok (scaled x)
              else if existsb (String.eqb (ext_of w)) valid_ext then x <- sound w ;; Ok (scaled x)
              else Err BareException
  end.

(** self.scp[file_id]: the last entry of that key (C06) *)
Definition path_of (files : list (string * string)) (k : string) : res string :=
  match find (fun p => eqb (fst p) k) (rev files) with Some p => Ok (snd p) | None => Err KeyError end.

(** _read_segment, audio_reader.py:117-141: the message of the exception uses undefined names *)
Definition read_segment (files : list (string * string)) (s : seg) : res wave :=
  path <- path_of files (sg_file s) ;;
  '(x, fs) <- read_wavspecifier path ;;
  let n := Z.of_nat (len x) in
  let b := sample_of fs (sg_tb s) in
  if n <=? b then Err NameError
  else
    let e := sample_of fs (sg_te s) in
    let e := if (n <? e) || negb (Qle_bool 0 (sg_te s)) then n else e in
    Ok (py_slice x b e, fs).

(** the state of SequentialAudioReader *)
Record areader := mk_ar { ar_files : list (string * string); ar_segs : option (list seg); ar_cur : nat }.

(** the segments argument: a path, whose table is given, or a SegmentList object; the test on its type is made on the other argument
    (audio_reader.py:34-52), so that an object is handed to pd.read_csv. The loaded table must have tend >= tbeg. *)
Inductive seg_arg := NoSegs | SegPath (t : list seg) | SegObject (t : list seg).
Definition load_segs (a : seg_arg) : res (option (list seg)) :=
  match a with NoSegs => Ok None | SegPath t => o <- sl_new t false ;; Ok (Some (sl_segs o)) | SegObject _ => Err ValueError end.

(** SequentialAudioReader.__init__, audio_reader.py:151-160; scp.split groups by key *)
Definition seq_open (files : list (string * string)) (a : seg_arg) (part_idx num_parts : Z) : res areader :=
  segs <- load_segs a ;;
  if 1 <? num_parts then
    match segs with
    | Some t => o <- sl_split (mk_sl t false) part_idx num_parts ;; Ok (mk_ar files (Some (sl_segs o)) 0)
    | None => p <- split_list_group_by_key files (map fst files) part_idx num_parts ;; Ok (mk_ar (fst p) None 0)
    end
  else Ok (mk_ar files segs 0).

(** eof, audio_reader.py:201-209 *)
Definition num_items (r : areader) : nat := match ar_segs r with Some t => len t | None => len (ar_files r) end.
Definition ar_eof (r : areader) : bool := (ar_cur r =? num_items r)%nat.
(** the item under the cursor, audio_reader.py:212-245 *)
Definition read_item (r : areader) : res (string * wave) :=
  match ar_segs r with
  | Some t => match nth_error t (ar_cur r) with
              | Some s => w <- read_segment (ar_files r) s ;; Ok (sg_id s, w)
              | None => Err BareException
              end
  | None => match nth_error (ar_files r) (ar_cur r) with
            | Some p => w <- read_wavspecifier (snd p) ;; Ok (fst p, w)
            | None => Err IndexError
            end
  end.
(** read, audio_reader.py:212-245; read(0) counts the files even when there are segments *)
Fixpoint seq_loop (n : nat) (r : areader) : res (list (string * wave) * areader) :=
  match n with
  | O => Ok ([], r)
  | S n => if ar_eof r then Ok ([], r)
           else x <- read_item r ;;
                '(l, r) <- seq_loop n (mk_ar (ar_files r) (ar_segs r) (S (ar_cur r))) ;;
                Ok (x :: l, r)
  end.
Definition seq_read (r : areader) (num_records : Z) : res (list (string * wave) * areader) :=
  let n := if num_records =? 0 then Z.of_nat (len (ar_files r)) - Z.of_nat (ar_cur r) else num_records in
  seq_loop (Z.to_nat n) r.
(** __next__, audio_reader.py:175-184 *)
Definition seq_next (r : areader) : res ((string * wave) * areader) :=
  '(l, r) <- seq_read r 1 ;; match l with [] => Err StopIteration | x :: _ => Ok (x, r) end.
Definition seq_reset (r : areader) : areader := mk_ar (ar_files r) (ar_segs r) 0.
(** a sequence of calls of read *)
Fixpoint seq_reads (ns : list Z) (r : areader) : res (list (list (string * wave)) * areader) :=
  match ns with
  | [] => Ok ([], r)
  | n :: ns => '(l, r) <- seq_read r n ;; '(ls, r) <- seq_reads ns r ;; Ok (l :: ls, r)
  end.

(** RandomAccessAudioReader.read, audio_reader.py:284-315. A repeated segment id selects several rows and fails further on; here TypeError. *)
Definition random_read1 (files : list (string * string)) (segs : option (list seg)) (key : string) : res wave :=
  match segs with
  | Some t => match filter (fun s => eqb (sg_id s) key) t with
              | [] => Err BareException
              | [s] => read_segment files s
              | _ => Err TypeError
              end
  | None => if inb key (map fst files) then path <- path_of files key ;; read_wavspecifier path else Err BareException
  end.
Definition random_read (files : list (string * string)) (segs : option (list seg)) (keys : list string) : res (list wave) :=
  mapM (random_read1 files segs) keys.
End Audio.

(** ** CopyFeats, copy_feats.py:21-82 *)
Section Copy.
Context {Rec W : Type}.
Variable write : W -> list Rec -> res W.
(** An opened input is the list of the records that its reads deliver. [eof] tells whether the reader reports the end when this list is left:
    a reader may find out only at the next read. A read of 0 records takes the rest. *)
Definition read_chunk (chunk : Z) (l : list Rec) : list Rec * list Rec :=
  if chunk =? 0 then (l, []) else (firstn (Z.to_nat chunk) l, skipn (Z.to_nat chunk) l).
Fixpoint copy_loop (fuel : nat) (eof : list Rec -> bool) (chunk : Z) (l : list Rec) (w : W) : res W :=
  match fuel with
  | O => Err RuntimeErr
  | S fuel => if eof l then Ok w
              else let '(c, rest) := read_chunk chunk l in
                   match c with [] => Ok w | _ => w <- write w c ;; copy_loop fuel eof chunk rest w end
  end.
(** the inputs are the readers of part part_idx out of num_parts *)
Fixpoint copy_inputs (eof : list Rec -> bool) (chunk : Z) (ins : list (list Rec)) (w : W) : res W :=
  match ins with [] => Ok w | l :: ins => w <- copy_loop (S (S (len l))) eof chunk l w ;; copy_inputs eof chunk ins w end.
Definition copy_feats (eof : list Rec -> bool) (chunk num_parts : Z) (ins : list (res (list Rec))) (w : W) : res W :=
  if (1 <? num_parts) && (1 <? len ins)%nat then Err AssertionError
  else l <- mapM (fun x => x) ins ;; copy_inputs eof chunk l w.
End Copy.

(** ** H5Merger, h5_merger.py:17-44, over HypDataReader and HypDataWriter (hyp_data_reader.py:27-56, hyp_data_writer.py:23-36).
    [conv] is the conversion to the saving precision. *)
Fixpoint create_all (conv : dset -> dset) (out : h5file) (l : list (string * dset)) : res h5file :=
  match l with [] => Ok out | (k, d) :: l => out <- create_dataset out k (conv d) ;; create_all conv out l end.
(** the loop over chunks: xrange with step 0 is a ValueError *)
Fixpoint merge_chunks (conv : dset -> dset) (fuel : nat) (chunk : nat) (l : list (string * dset)) (out : h5file) : res h5file :=
  match fuel with
  | O => Ok out
  | S fuel => match l with [] => Ok out | _ => out <- create_all conv out (firstn chunk l) ;; merge_chunks conv fuel chunk (skipn chunk l) out end
  end.
(** the datasets of a file come in the order of their names *)
Definition merge_file (conv : dset -> dset) (chunk_size : option nat) (f : h5file) (out : h5file) : res h5file :=
  ds <- mapM (fun k => d <- h5_item f k ;; Ok (k, d)) (h5_keys f) ;;
  let chunk := match chunk_size with Some c => c | None => len ds end in
  match chunk with O => Err ValueError | _ => merge_chunks conv (len ds) chunk ds out end.
Fixpoint h5_merge (conv : dset -> dset) (chunk_size : option nat) (fs : list h5file) (out : h5file) : res h5file :=
  match fs with [] => Ok out | f :: fs => out <- merge_file conv chunk_size f out ;; h5_merge conv chunk_size fs out end.
