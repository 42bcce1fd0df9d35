(** Model of the old reader of Kaldi archives, hyperion/io/kaldi_data_reader.py, and of the script hyperion/bin/ark2hyp.py that turns
    what it reads into an HDF5 file. (kaldi_io_funcs.py and kaldi_matrix.py, used by the newer readers, are in Kaldi.v.) *)
From Verif Require Import Base Str Bytes Kaldi Scp H5.
Open Scope list_scope. Open Scope Z_scope.

(** bytes.split(): words between runs of blanks *)
Definition blank (c : ascii) : bool := let n := Z.of_nat (nat_of_ascii c) in ((9 <=? n) && (n <=? 13)) || (n =? 32).
Fixpoint words_acc (w : list byte) (s : list byte) : list (list byte) :=
  match s with
  | [] => match w with [] => [] | _ => [rev w] end
  | c :: s => if blank c then match w with [] => words_acc [] s | _ => rev w :: words_acc [] s end else words_acc (c :: w) s
  end.
Definition bwords (s : list byte) : list (list byte) := words_acc [] s.
(** f.readline(): up to and with the next newline *)
Fixpoint cut_line (s : list byte) : list byte * list byte :=
  match s with [] => ([], []) | c :: s => if Ascii.eqb c nl then ([c], s) else let '(l, r) := cut_line s in (c :: l, r) end.

Section Reader.
(** np.array(words, dtype='float32') of one word; None: ValueError *)
Variable parse32 : list byte -> option (list byte).

Definition row32 (ws : list (list byte)) : res (list (list byte)) := mapM (fun w => match parse32 w with Some e => Ok e | None => Err ValueError end) ws.
(** np.vstack(rows): all rows of one length *)
Definition vstack (rows : list (list (list byte))) : res km :=
  match rows with
  | [] => Err ValueError
  | r :: _ => if forallb (fun q => Nat.eqb (List.length q) (List.length r)) rows
              then Ok (mk_km F32 (Mat (Z.of_nat (List.length rows)) (Z.of_nat (List.length r))) (concat rows)) else Err ValueError
  end.
(** kaldi_data_reader.py:136-148 [_read_ascii_matrix] on the rest of the file. At its end the undefined name BadInputFormat is a NameError.
    Every line is at least one byte, so the length of the rest bounds the number of lines. *)
Fixpoint read_ascii (fuel : nat) (s : list byte) (rows : list (list (list byte))) : res km :=
  match fuel with
  | O => Err NameError
  | S fuel =>
    let '(line, s') := cut_line s in
    match line with
    | [] => Err NameError
    | _ => match bwords line with
           | [] => read_ascii fuel s' rows
           | w :: ws => if bytes_eqb (last (w :: ws) []) ["]"%char]
                        then r <- row32 (removelast (w :: ws)) ;; vstack (rows ++ [r])
                        else r <- row32 (w :: ws) ;; read_ascii fuel s' (rows ++ [r])
           end
    end
  end.
(** kaldi_data_reader.py:106-132 [_read_bin_matrix] *)
Definition read_bin (f : file) : res km :=
  '(b, f) <- f_read f 3 ;;
  t <- decode_ascii b ;;
  c0 <- tok_char t 0 ;;
  c1 <- tok_char t 1 ;;
  dt <- (match dtype_of c0 with Some d => Ok d | None => Err AssertionError end) ;;
  ism <- (match ndim_of c1 with Some b => Ok b | None => Err AssertionError end) ;;
  '(rows, f) <- (if ism then '(_, f) <- f_read f 1 ;; '(b, f) <- f_read f 4 ;; n <- unpack_i b ;; Ok (n, f) else Ok (1, f)) ;;
  '(_, f) <- f_read f 1 ;;
  '(b, f) <- f_read f 4 ;;
  cols <- unpack_i b ;;
  '(buf, _) <- f_read f (rows * cols * itemsize dt) ;;
  vec <- frombuffer (Z.to_nat (itemsize dt)) buf ;;
  if ism then v <- reshape_ok vec rows cols ;; Ok (mk_km dt (Mat rows cols) v) else Ok (mk_km dt (Vec (Z.of_nat (List.length vec))) vec).
(** kaldi_data_reader.py:87-102 [_read_matrix] on the opened file (the prints left out) *)
Definition read_matrix (f : file) : res km :=
  '(b, f) <- f_read f 2 ;;
  if bytes_eqb b marker then read_bin f
  else _ <- assert (bytes_eqb b [" "%char; "["%char]) ;; read_ascii (S (List.length (rest f))) (rest f) [].

(** kaldi_data_reader.py:68-83 [_open]: "path:123" is split at the last colon. [disk] gives the bytes of a file as open() or, for
    names ending in .gz, gzip.open() presents them; a missing file is an OSError. *)
Fixpoint all_digits (s : string) : bool := match s with EmptyString => true | String c s => is_digit c && all_digits s end.
Fixpoint rcut (c : ascii) (s : string) : option (string * string) :=
  match s with
  | EmptyString => None
  | String d s => match rcut c s with
                  | Some (a, b) => Some (String d a, b)
                  | None => if Ascii.eqb d c then Some (EmptyString, s) else None
                  end
  end.
Definition old_open (disk : string -> option (list byte)) (path : string) : res file :=
  let '(p, off) := match rcut ":" path with Some (a, b) => if all_digits b && negb (b =? "")%string then (a, Some (digits_val 0 b)) else (path, None) | None => (path, None) end in
  match disk p with
  | None => Err IOErr
  | Some bs => let f := open_file bs (fun _ => 0%nat) in match off with Some o => f_seek f o | None => Ok f end
  end.

(** The reader: an OrderedDict from key to path, where a repeated key keeps its place and takes the last path; and the cursor. *)
Record kdr := mk_kdr { kd_scp : list (string * string); kd_cur : nat }.
Fixpoint od_set (d : list (string * string)) (k v : string) : list (string * string) :=
  match d with [] => [(k, v)] | (j, w) :: d => if (j =? k)%string then (j, v) :: d else (j, w) :: od_set d k v end.
Definition odict (l : list (string * string)) : list (string * string) := fold_left (fun d kv => od_set d (fst kv) (snd kv)) l [].
Fixpoint od_get (d : list (string * string)) (k : string) : res string :=
  match d with [] => Err KeyError | (j, v) :: d => if (j =? k)%string then Ok v else od_get d k end.
(** kaldi_data_reader.py:22-33: the offsets and ranges that SCPList.load found are not looked at *)
Definition kdr_new (text : string) (input_dir : option string) (sep : ascii) : res kdr :=
  s <- scp_load text sep ":"%char ;;
  let path v := match input_dir with None => v | Some d => (d ++ "/" ++ v)%string end in
  Ok (mk_kdr (odict (map (fun kv => (fst kv, path (snd kv))) (combine (s_key s) (s_path s)))) 0).
Definition kdr_keys (r : kdr) : list string := map fst (kd_scp r).
(** lines 61-65 *)
Definition kdr_reset (r : kdr) : kdr := mk_kdr (kd_scp r) 0.
Definition kdr_eof (r : kdr) : bool := Nat.eqb (kd_cur r) (List.length (kd_scp r)).
Definition read_key (disk : string -> option (list byte)) (r : kdr) (k : string) : res km := p <- od_get (kd_scp r) k ;; f <- old_open disk p ;; read_matrix f.
(** kaldi_data_reader.py:36-58 [read] (squeeze=False; counts and positions that are not negative). The cursor moves before the matrices are
    read. *)
Definition kdr_read (disk : string -> option (list byte)) (r : kdr) (keys : option (list string)) (num first : option nat) : res (list km * list string) * kdr :=
  let '(ks, cur) := match keys with
    | Some ks => (ks, kd_cur r)
    | None =>
      let all := kdr_keys r in
      let cur := match first with Some c => c | None => kd_cur r end in
      match num with
      | None => let ks := skipn cur all in (ks, List.length ks)
      | Some n => let fin := Nat.min (cur + n) (List.length all) in (firstn (fin - cur) (skipn cur all), fin)
      end
    end in
  (x <- mapM (read_key disk r) ks ;; Ok (x, ks), mk_kdr (kd_scp r) cur).

(** ** bin/ark2hyp.py:23-34. The directory of the output file: os.makedirs of the empty name is an OSError. HypDataWriter.write
    (hyp_data_writer.py:28-36) creates one dataset for each key, named key + field, in the saving precision [conv]. None: the loop does not end. *)
Definition dirname_empty (p : string) : bool := negb (str_in "/"%char p).
Fixpoint hyp_write (conv : km -> dset) (field : string) (out : h5file) (l : list (string * km)) : res h5file :=
  match l with [] => Ok out | (k, m) :: l => out <- create_dataset out (k ++ field)%string (conv m) ;; hyp_write conv field out l end.
Fixpoint ark2hyp_loop (fuel : nat) (disk : string -> option (list byte)) (conv : km -> dset) (field : string) (chunk : option nat) (r : kdr) (out : h5file) : option (res h5file) :=
  if kdr_eof r then Some (Ok out)
  else match fuel with
  | O => None
  | S fuel =>
    let '(x, r) := kdr_read disk r None chunk None in
    match x with
    | Err e => Some (Err e)
    | Ok (xs, ks) => match hyp_write conv field out (combine ks xs) with
                     | Err e => Some (Err e)
                     | Ok out => ark2hyp_loop fuel disk conv field chunk r out
                     end
    end
  end.
Definition ark2hyp (fuel : nat) (disk : string -> option (list byte)) (conv : km -> dset) (list_text : string) (input_dir : option string) (output_file field : string) (chunk : option nat) : option (res h5file) :=
  if dirname_empty output_file then Some (Err IOErr)
  else match kdr_new list_text input_dir " "%char with
       | Err e => Some (Err e)
       | Ok r => ark2hyp_loop fuel disk conv field chunk r []
       end.
End Reader.
