(** Model of hyperion/io/ark_data_writer.py, hyperion/io/ark_data_reader.py and the static
    methods of hyperion/io/data_reader.py.  Binary archives; no transform; squeeze=False;
    row_offset and num_rows are integers or (random access and script readers) lists. *)
From Verif Require Export Kaldi Scp.
Open Scope list_scope.
Open Scope Z_scope.

(** ** data_reader.py *)

(** data_reader.py:100-135 [_combine_ranges] *)
Definition combine_ranges (read_range : option (Z * Z)) (row_offset num_rows : Z) : res (Z * Z) :=
  match read_range with
  | None => Ok (row_offset, num_rows)
  | Some (a, b) =>
      let row_offset := row_offset + a in
      if num_rows =? 0 then Ok (row_offset, b)
      else _ <- (if 0 <? b then assert (num_rows <=? b) else Ok tt) ;; Ok (row_offset, num_rows)
  end.

(** data_reader.py:140-161 [_apply_range_to_shape] (shape[0] is the only axis of a vector) *)
Definition apply_range_to_shape (s : shape) (row_offset num_rows : Z) : res shape :=
  if (0 <? row_offset) || (0 <? num_rows) then
    let s0 := match s with Vec n => n | Mat r _ => r end - row_offset in
    s0 <- (if 0 <? num_rows then _ <- assert (num_rows <=? s0) ;; Ok num_rows else Ok s0) ;;
    Ok (match s with Vec _ => Vec s0 | Mat _ c => Mat s0 c end)
  else Ok s.

(** ** Writer *)

(** What is given to the writer, and what it stores. *)
Inductive wdata := Raw (m : km) | Comp (c : cm).

(** Configuration: archive path, separator of the script, the compress flag, the compressor
    (KaldiCompressedMatrix.compress with the chosen method) and the expander used by to_matrix.
    Both are arbitrary here. *)
Record wcfg := mk_wcfg {
  w_path : string; w_sep : ascii; w_compress : bool;
  w_compressor : km -> res cm; w_expander : cm -> res km }.

(** archive bytes and script text written so far *)
Record wst := mk_wst { w_ark : list byte; w_scp : string }.
Definition wst0 : wst := mk_wst [] "".

(** ark_data_writer.py:84-106 [_convert_data].  The conversion of an ndarray to float32 is not
    modelled: a [Raw] matrix is what is left after it. *)
Definition convert_data (cfg : wcfg) (d : wdata) : res wdata :=
  match d with
  | Raw m => if w_compress cfg then c <- w_compressor cfg m ;; Ok (Comp c) else Ok (Raw m)
  | Comp c => if w_compress cfg then Ok (Comp c) else m <- w_expander cfg c ;; Ok (Raw m)
  end.

Definition write_data (d : wdata) : res (list byte) :=
  match d with Raw m => km_write m | Comp c => cm_write c end.

(** ark_data_writer.py:110-139, one turn of the loop *)
Definition ark_write1 (cfg : wcfg) (st : wst) (kd : string * wdata) : res wst :=
  let '(key, data) := kd in
  _ <- assert (is_token key) ;;
  tok <- write_token key ;;
  let ark := w_ark st ++ tok in
  let pos := Z.of_nat (List.length ark) in
  d <- convert_data cfg data ;;
  bs <- write_data d ;;
  Ok (mk_wst (ark ++ init_kaldi_output_stream true ++ bs)
        (w_scp st ++ key ++ sstr (w_sep cfg) ++ w_path cfg ++ ":" ++ fmt_d pos ++ nl_str)%string).

(** ark_data_writer.py:110-139 [write] *)
Fixpoint ark_write (cfg : wcfg) (st : wst) (recs : list (string * wdata)) : res wst :=
  match recs with [] => Ok st | r :: recs' => st <- ark_write1 cfg st r ;; ark_write cfg st recs' end.

(** a sequence of calls of [write] *)
Fixpoint ark_writes (cfg : wcfg) (st : wst) (calls : list (list (string * wdata))) : res wst :=
  match calls with [] => Ok st | c :: cs => st <- ark_write cfg st c ;; ark_writes cfg st cs end.

(** ** Sequential reader of one archive *)

Record aseq := mk_aseq { a_f : file; a_eof : bool }.

(** ark_data_reader.py:138-146 [__init__] on the archive contents *)
Definition aseq_open (bs : list byte) (buf : nat -> nat) : aseq := mk_aseq (open_file bs buf) false.
(** ark_data_reader.py:150-154 [reset] *)
Definition aseq_reset (r : aseq) : aseq := mk_aseq (goto (a_f r) 0) false.

(** data_i.shape[0] *)
Definition shape0 (s : shape) : Z := match s with Vec n => n | Mat r _ => r end.

(** the text branch of KaldiMatrix.read is not modelled *)
Definition km_read_b (dec : decoder) (binary : bool) (f : file) (r n : Z) (seq : bool) :=
  if binary then km_read dec f r n seq else Err NotImplemented.
Definition km_read_shape_b (binary : bool) (f : file) (seq : bool) :=
  if binary then km_read_shape f seq else Err NotImplemented.

(** ark_data_reader.py:204-257, the loop of [read].  [left = None] is num_records = 0 (no limit).
    [fuel] bounds the iterations; every record takes at least one byte. *)
Fixpoint aseq_loop (fuel : nat) (dec : decoder) (f : file) (binary : bool) (left : option nat)
  (row_offset num_rows : Z) (acc : list (string * km)) : res (list (string * km) * aseq) :=
  match left with
  | Some O => Ok (acc, mk_aseq f false)
  | _ =>
    match fuel with
    | O => Err RuntimeErr
    | S fuel' =>
      '(key, f) <- read_token f binary ;;
      if String.eqb key "" then Ok (acc, mk_aseq f true)
      else
        '(binary, f) <- init_kaldi_input_stream f ;;
        '(data, f) <- km_read_b dec binary f row_offset num_rows true ;;
        _ <- assert ((num_rows =? 0) || (shape0 (k_shape data) =? num_rows)) ;;
        aseq_loop fuel' dec f binary (option_map pred left) row_offset num_rows (acc ++ [(key, data)])
    end
  end.

(** ark_data_reader.py:204-257 [read].  A negative num_records reads nothing (the loop test
    fails at once).  The eof flag is only ever set here. *)
Definition aseq_read (dec : decoder) (r : aseq) (num_records row_offset num_rows : Z)
  : res (list (string * km) * aseq) :=
  let left := if num_records =? 0 then None else Some (Z.to_nat num_records) in
  '(l, r') <- aseq_loop (S (List.length (rest (a_f r)))) dec (a_f r) false left row_offset num_rows [] ;;
  Ok (l, mk_aseq (a_f r') (a_eof r || a_eof r')).

(** ark_data_reader.py:164-200 [read_shapes] (assert_same_dim=False) *)
Fixpoint aseq_shapes_loop (fuel : nat) (f : file) (binary : bool) (left : option nat)
  (acc : list (string * shape)) : res (list (string * shape) * aseq) :=
  match left with
  | Some O => Ok (acc, mk_aseq f false)
  | _ =>
    match fuel with
    | O => Err RuntimeErr
    | S fuel' =>
      '(key, f) <- read_token f binary ;;
      if String.eqb key "" then Ok (acc, mk_aseq f true)
      else
        '(binary, f) <- init_kaldi_input_stream f ;;
        '(sh, f) <- km_read_shape_b binary f true ;;
        aseq_shapes_loop fuel' f binary (option_map pred left) (acc ++ [(key, sh)])
    end
  end.
Definition aseq_read_shapes (r : aseq) (num_records : Z) : res (list (string * shape) * aseq) :=
  let left := if num_records =? 0 then None else Some (Z.to_nat num_records) in
  '(l, r') <- aseq_shapes_loop (S (List.length (rest (a_f r)))) (a_f r) false left [] ;;
  Ok (l, mk_aseq (a_f r') (a_eof r || a_eof r')).

(** ** Readers through a script *)

(** Files on disk: contents (None: no such file) and the buffering each one will show. *)
Record disk := mk_disk { d_bytes : string -> option (list byte); d_buf : string -> nat -> nat }.
Definition d_open (d : disk) (path : string) : res file :=
  match d_bytes d path with Some bs => Ok (open_file bs (d_buf d path)) | None => Err IOErr end.

(** row_offset / num_rows argument: a number, or one number per record *)
Inductive zarg := ZConst (z : Z) | ZList (l : list Z).
Definition zarg_at (a : zarg) (i : nat) : res Z :=
  match a with ZConst z => Ok z | ZList l => get_item l (Z.of_nat i) end.

(** ark_data_reader.py:283-295: script, next item, open archive *)
Record sreader := mk_sreader {
  s_scp : scp; s_cur : nat; s_f : option file; s_file : option string }.

Definition sreader_open (s : scp) : sreader := mk_sreader s 0 None None.
(** ark_data_reader.py:299-303 [reset] (cur_file is not cleared by close) *)
Definition sreader_reset (r : sreader) : sreader := mk_sreader (s_scp r) 0 None (s_file r).
(** ark_data_reader.py:307-309 [eof] *)
Definition sreader_eof (r : sreader) : bool := Nat.eqb (s_cur r) (List.length (s_key (s_scp r))).

(** ark_data_reader.py:50-77 [_seek], [_open_archive]: [offset > 0] with offset None is a
    TypeError. *)
Definition s_open_archive (d : disk) (r : sreader) (path : string) (offset : option Z) : res file :=
  f <- (match s_f r, s_file r with
        | Some f, Some p => if String.eqb path p then Ok f else d_open d path
        | _, _ => d_open d path
        end) ;;
  match offset with
  | None => Err TypeError
  | Some off =>
      if 0 <? off then f_seek_cur f (off - Z.of_nat (f_pos f)) else Ok f
  end.

(** ark_data_reader.py:359-415, one turn of the loop of [read] *)
Definition s_read1 (dec : decoder) (d : disk) (r : sreader) (row_offset num_rows : Z)
  : res ((string * km) * sreader) :=
  '(key, path, offset, range) <- getitem_index (s_scp r) (Z.of_nat (s_cur r)) ;;
  '(ro, nr) <- combine_ranges range row_offset num_rows ;;
  f <- s_open_archive d r path offset ;;
  '(binary, f) <- init_kaldi_input_stream f ;;
  '(data, f) <- km_read_b dec binary f ro nr true ;;
  _ <- assert ((nr =? 0) || (shape0 (k_shape data) =? nr)) ;;
  Ok ((key, data), mk_sreader (s_scp r) (S (s_cur r)) (Some f) (Some path)).

Fixpoint s_read_loop (n : nat) (i : nat) (dec : decoder) (d : disk) (r : sreader)
  (row_offset num_rows : zarg) (acc : list (string * km)) : res (list (string * km) * sreader) :=
  match n with
  | O => Ok (acc, r)
  | S n' =>
      if sreader_eof r then Ok (acc, r)
      else
        ro <- zarg_at row_offset i ;;
        nr <- zarg_at num_rows i ;;
        '(x, r) <- s_read1 dec d r ro nr ;;
        s_read_loop n' (S i) dec d r row_offset num_rows (acc ++ [x])
  end.

(** ark_data_reader.py:359-415 [read] *)
Definition s_read (dec : decoder) (d : disk) (r : sreader) (num_records : Z) (row_offset num_rows : zarg)
  : res (list (string * km) * sreader) :=
  let n := if num_records =? 0 then (List.length (s_key (s_scp r)) - s_cur r)%nat
           else Z.to_nat num_records in
  s_read_loop n 0 dec d r row_offset num_rows [].

(** ark_data_reader.py:313-354 [read_shapes], one record *)
Definition s_shape1 (d : disk) (r : sreader) : res ((string * shape) * sreader) :=
  '(key, path, offset, range) <- getitem_index (s_scp r) (Z.of_nat (s_cur r)) ;;
  '(ro, nr) <- combine_ranges range 0 0 ;;
  f <- s_open_archive d r path offset ;;
  '(binary, f) <- init_kaldi_input_stream f ;;
  '(sh, f) <- km_read_shape_b binary f true ;;
  sh <- apply_range_to_shape sh ro nr ;;
  Ok ((key, sh), mk_sreader (s_scp r) (S (s_cur r)) (Some f) (Some path)).

(** ** Random access *)

(** ark_data_reader.py:438-451: one possibly open file per distinct path.  The open files are
    kept by path (the code keeps them by position in np.unique(file_path)). *)
Record rreader := mk_rreader { r_scp : scp; r_open : string -> option file; r_perm : bool }.
Definition rreader_new (s : scp) (permissive : bool) : rreader := mk_rreader s (fun _ => None) permissive.

(** ark_data_reader.py:464-484 [_open_archive]: absolute seek *)
Definition r_open_archive (d : disk) (r : rreader) (path : string) (offset : option Z) : res file :=
  f <- (match r_open r path with Some f => Ok f | None => d_open d path end) ;;
  match offset with None => Err TypeError | Some off => f_seek f off end.

Definition set_open (r : rreader) (path : string) (f : file) (s : scp) : rreader :=
  mk_rreader s (fun p => if String.eqb p path then Some f else r_open r p) (r_perm r).

(** The empty array of permissive mode. *)
Definition empty_array : km := mk_km F32 (Vec 0) [].

(** ark_data_reader.py:576-640, one turn of the loop of [read].  The dictionary lookups may
    build the cache of the script. *)
Definition r_read1 (dec : decoder) (d : disk) (r : rreader) (key : string) (row_offset num_rows : Z)
  : res (km * rreader) :=
  let '(present, s) := contains (r_scp r) key in
  if negb present then
    if r_perm r then Ok (empty_array, mk_rreader s (r_open r) (r_perm r)) else Err BareException
  else
    let '(ri, s) := get_index s key in
    i <- ri ;;
    '(_, path, offset, range) <- getitem_index s i ;;
    '(ro, nr) <- combine_ranges range row_offset num_rows ;;
    f <- r_open_archive d r path offset ;;
    '(binary, f) <- init_kaldi_input_stream f ;;
    '(data, f) <- km_read_b dec binary f ro nr false ;;
    _ <- assert ((nr =? 0) || (shape0 (k_shape data) =? nr)) ;;
    Ok (data, set_open r path f s).

Fixpoint r_read_loop (i : nat) (dec : decoder) (d : disk) (r : rreader) (keys : list string)
  (row_offset num_rows : zarg) : res (list km * rreader) :=
  match keys with
  | [] => Ok ([], r)
  | k :: ks =>
      ro <- zarg_at row_offset i ;;
      nr <- zarg_at num_rows i ;;
      '(x, r) <- r_read1 dec d r k ro nr ;;
      '(xs, r) <- r_read_loop (S i) dec d r ks row_offset num_rows ;;
      Ok (x :: xs, r)
  end.

Definition zarg_len_ok (a : zarg) (n : nat) : bool :=
  match a with ZConst _ => true | ZList l => Nat.eqb (List.length l) n end.

(** ark_data_reader.py:576-640 [read] *)
Definition r_read (dec : decoder) (d : disk) (r : rreader) (keys : list string) (row_offset num_rows : zarg)
  : res (list km * rreader) :=
  _ <- assert (zarg_len_ok row_offset (List.length keys)) ;;
  _ <- assert (zarg_len_ok num_rows (List.length keys)) ;;
  r_read_loop 0 dec d r keys row_offset num_rows.

(** ark_data_reader.py:527-572 [read_shapes] (assert_same_dim=False), one key *)
Definition r_shape1 (d : disk) (r : rreader) (key : string) : res (shape * rreader) :=
  let '(present, s) := contains (r_scp r) key in
  if negb present then
    if r_perm r then Ok (Vec 0, mk_rreader s (r_open r) (r_perm r)) else Err BareException
  else
    let '(ri, s) := get_index s key in
    i <- ri ;;
    '(_, path, offset, range) <- getitem_index s i ;;
    '(ro, nr) <- combine_ranges range 0 0 ;;
    f <- r_open_archive d r path offset ;;
    '(binary, f) <- init_kaldi_input_stream f ;;
    '(sh, f) <- km_read_shape_b binary f false ;;
    sh <- apply_range_to_shape sh ro nr ;;
    Ok (sh, set_open r path f s).

