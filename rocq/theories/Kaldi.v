(** Model of hyperion/utils/kaldi_io_funcs.py and hyperion/utils/kaldi_matrix.py (binary
    branches; the text branches are not modelled except where stated).

    Matrix elements are bit patterns: the 4 or 8 bytes of the float as they sit in the file.
    An output file is the list of bytes appended to it. *)
From Verif Require Export Bytes.
Open Scope list_scope.
Open Scope Z_scope.

Definition space : byte := " "%char.
Definition spc_str : string := String space EmptyString.

(** kaldi_io_funcs.py:31-34 [check_token] *)
Definition check_token (token : string) : res unit := assert (negb (str_in space token)).

(** kaldi_io_funcs.py:37-46 [is_token].  [str.isprintable] on code points < 256: printable
    ASCII and the Latin-1 letters and signs (160 and 173 are not printable). *)
Definition is_printable (c : ascii) : bool :=
  let n := nat_of_ascii c in
  ((32 <=? n) && (n <=? 126) || (161 <=? n) && negb (n =? 173))%nat.
Definition is_token (token : string) : bool :=
  negb (String.length token =? 0)%nat && str_forallb is_printable token &&
  negb (str_in space token).

(** kaldi_io_funcs.py:49-64 [read_token]: loop of l.58-62, one byte at a time until a space or
    the end of file.  [fuel] bounds the iterations; [read_token] supplies more than there are
    bytes left. *)
Fixpoint read_token_loop (fuel : nat) (f : file) (token : list byte) : res (list byte * file) :=
  match fuel with
  | O => Err RuntimeErr
  | S fuel' =>
      '(c, f) <- f_read f 1 ;;
      match c with
      | [] => Ok (token, f)
      | b :: _ => if Ascii.eqb b space then Ok (token, f)
                  else read_token_loop fuel' f (token ++ [b])
      end
  end.

(** kaldi_io_funcs.py:52-55: in text mode spaces are skipped while [f.peek(1) == b' '], i.e.
    while the buffer holds exactly one byte and it is a space. *)
Fixpoint skip_single_spaces (fuel : nat) (f : file) : res file :=
  match fuel with
  | O => Err RuntimeErr
  | S fuel' =>
      let '(p, f) := f_peek f in
      match p with
      | [b] => if Ascii.eqb b space
               then '(_, f) <- f_read f 1 ;; skip_single_spaces fuel' f
               else Ok f
      | _ => Ok f
      end
  end.

Definition read_token (f : file) (binary : bool) : res (string * file) :=
  f <- (if binary then Ok f else skip_single_spaces (S (List.length (rest f))) f) ;;
  '(tok, f) <- read_token_loop (S (List.length (rest f))) f [] ;;
  s <- decode_ascii tok ;;
  Ok (s, f).

(** kaldi_io_funcs.py:68-75 [write_token] (binary) *)
Definition write_token (token : string) : res (list byte) :=
  _ <- check_token token ;;
  encode_ascii (token ++ spc_str)%string.

(** kaldi_io_funcs.py:79-92 [peek] (binary=True): two looks at the buffer at most. *)
Definition peek (f : file) (num_bytes : Z) : res (list byte * file) :=
  let '(p, f) := f_peek f in
  let p := firstn (Z.to_nat num_bytes) p in
  let peek_bytes := Z.of_nat (List.length p) in
  if peek_bytes <? num_bytes then
    '(_, f) <- f_read f peek_bytes ;;
    let delta_bytes := num_bytes - peek_bytes in
    let '(q, f) := f_peek f in
    let p := p ++ firstn (Z.to_nat delta_bytes) q in
    f <- f_seek_cur f (- peek_bytes) ;;
    Ok (p, f)
  else Ok (p, f).

Definition bytes_eqb (a b : list byte) : bool :=
  if list_eq_dec ascii_dec a b then true else false.

(** kaldi_io_funcs.py:15-28 binary marker *)
Definition marker : list byte := [chr 0; "B"%char].
Definition init_kaldi_output_stream (binary : bool) : list byte :=
  if binary then marker else [].
Definition init_kaldi_input_stream (f : file) : res (bool * file) :=
  '(p, f) <- peek f 2 ;;
  if bytes_eqb p marker then '(_, f) <- f_read f 2 ;; Ok (true, f) else Ok (false, f).

(** kaldi_io_funcs.py:96-113 [read_int32] (binary) *)
Definition read_int32 (f : file) : res (Z * file) :=
  '(b, f) <- f_read f 1 ;;
  size <- unpack_b b ;;
  _ <- assert (size =? 4) ;;
  '(d, f) <- f_read f 4 ;;
  v <- unpack_i d ;;
  Ok (v, f).

(** kaldi_io_funcs.py:116-123 [write_int32] (binary) *)
Definition write_int32 (z : Z) : res (list byte) :=
  p <- pack_i z ;; Ok (byte_of 4 :: p).

(** ** KaldiMatrix *)

Inductive dtype := F32 | F64.
Definition itemsize (d : dtype) : Z := match d with F32 => 4 | F64 => 8 end.
Inductive shape := Vec (n : Z) | Mat (r c : Z).
Notation elem := (list byte) (only parsing).

(** A numpy array of floats: type, shape, elements in C order (tobytes order). *)
Record km := mk_km { k_dt : dtype; k_shape : shape; k_data : list elem }.

(** kaldi_matrix.py:42-52 *)
Definition km_rows (m : km) : Z := match k_shape m with Vec _ => 1 | Mat r _ => r end.
Definition km_cols (m : km) : Z := match k_shape m with Vec n => n | Mat _ c => c end.

(** kaldi_matrix.py:158-188 [KaldiMatrix.write], binary branch *)
Definition km_write (m : km) : res (list byte) :=
  let t1 := match k_dt m with F32 => "F" | F64 => "D" end%string in
  let t2 := match k_shape m with Mat _ _ => "M" | Vec _ => "V" end%string in
  tok <- write_token (t1 ++ t2)%string ;;
  rows <- match k_shape m with Mat _ _ => write_int32 (km_rows m) | Vec _ => Ok [] end ;;
  cols <- write_int32 (km_cols m) ;;
  Ok (tok ++ rows ++ cols ++ concat (k_data m)).

Definition dtype_of (c : ascii) : option dtype :=
  if Ascii.eqb c "F" then Some F32 else if Ascii.eqb c "D" then Some F64 else None.
Definition ndim_of (c : ascii) : option bool :=     (* Some true: matrix, Some false: vector *)
  if Ascii.eqb c "V" then Some false else if Ascii.eqb c "M" then Some true else None.

(** token[0], token[1] *)
Definition tok_char (t : string) (k : nat) : res ascii :=
  match String.get k t with Some c => Ok c | None => Err IndexError end.

(** a local variable that was never assigned *)
Definition bound_var {A} (o : option A) : res A :=
  match o with Some a => Ok a | None => Err UnboundLocalError end.

(** np.reshape of a flat array *)
Definition reshape_ok {A} (l : list A) (r c : Z) : res (list A) :=
  if (0 <=? r) && (0 <=? c) && (Z.of_nat (List.length l) =? r * c) then Ok l else Err ValueError.

(** kaldi_matrix.py:56-154 [KaldiMatrix.read], binary branch after the test for compressed
    data (l.76-115).  An unknown token letter only builds a ValueError (l.80, 84), so the
    failure is the later use of the unassigned local. *)
Definition km_read_raw (f : file) (row_offset num_rows : Z) (sequential_mode : bool)
  : res (km * file) :=
  '(token, f) <- read_token f true ;;
  c0 <- tok_char token 0 ;;
  c1 <- tok_char token 1 ;;
  ndim <- bound_var (ndim_of c1) ;;
  '(num_rows, rows_left, f) <-
     (if ndim then
        '(total_rows, f) <- read_int32 f ;;
        _ <- assert (row_offset <=? total_rows) ;;
        let total_rows := total_rows - row_offset in
        if num_rows =? 0 then Ok (total_rows, 0, f)
        else _ <- assert (num_rows <=? total_rows) ;;
             Ok (num_rows, total_rows - num_rows, f)
      else Ok (1, 0, f)) ;;
  '(num_cols, f) <- read_int32 f ;;
  dt <- bound_var (dtype_of c0) ;;
  f <- (if 0 <? row_offset then f_seek_cur f (row_offset * num_cols * itemsize dt) else Ok f) ;;
  '(data, f) <- f_read f (num_rows * num_cols * itemsize dt) ;;
  f <- (if (0 <? rows_left) && sequential_mode
        then f_seek_cur f (rows_left * num_cols * itemsize dt) else Ok f) ;;
  vec <- frombuffer (Z.to_nat (itemsize dt)) data ;;
  if ndim then v <- reshape_ok vec num_rows num_cols ;; Ok (mk_km dt (Mat num_rows num_cols) v, f)
  else Ok (mk_km dt (Vec (Z.of_nat (List.length vec))) vec, f).

(** ** KaldiCompressedMatrix *)

(** kaldi_matrix.py:254-279: the coded bytes (20 bytes of header first) and the attributes
    unpacked from the header.  Floats of the header are their 4 bytes. *)
Record cm := mk_cm {
  c_data : list byte; c_fmt : Z; c_min : elem; c_range : elem; c_rows : Z; c_cols : Z }.

(** struct.unpack('<iffii', h): format, min_value, data_range, num_rows, num_cols *)
Definition unpack_header (h : list byte) : res (Z * elem * elem * Z * Z) :=
  if Nat.eqb (List.length h) 20 then
    fmt <- unpack_i (slice h 0 4) ;;
    r <- unpack_i (slice h 12 16) ;;
    c <- unpack_i (slice h 16 20) ;;
    Ok (fmt, slice h 4 8, slice h 8 12, r, c)
  else Err StructError.

(** struct.pack('<iffii', ...).  Simplification: a float32 unpacked to a Python float and
    packed again keeps its 4 bytes (true for every float32 that is not a signalling NaN). *)
Definition pack_header (fmt : Z) (mn rg : elem) (r c : Z) : res (list byte) :=
  a <- pack_i fmt ;; b <- pack_i r ;; d <- pack_i c ;; Ok (a ++ mn ++ rg ++ b ++ d).

(** kaldi_matrix.py:269-279 [__init__] with data and l.339-346 [_unpack_header] *)
Definition cm_new (data : list byte) : res cm :=
  '(fmt, mn, rg, r, c) <- unpack_header (slice data 0 20) ;;
  Ok (mk_cm data fmt mn rg r c).

(** kaldi_matrix.py:413-451 [_get_read_info] *)
Definition get_read_info (header : list byte) (row_offset num_rows : Z)
  : res (list byte * Z * Z * Z * Z * Z) :=
  '(fmt, mn, rg, total_rows, num_cols) <- unpack_header header ;;
  let make_header := negb (row_offset =? 0) || negb (num_rows =? 0) in
  _ <- assert (row_offset <=? total_rows) ;;
  let total_rows := total_rows - row_offset in
  '(num_rows, rows_left) <-
     (if num_rows =? 0 then Ok (total_rows, 0)
      else _ <- assert (num_rows <=? total_rows) ;; Ok (num_rows, total_rows - num_rows)) ;;
  let '(bytes_col_header, bytes_offset, bytes_data, bytes_left) :=
    if fmt =? 1 then (num_cols * 8, row_offset, num_rows, rows_left)
    else if fmt =? 2 then (0, 2 * row_offset, 2 * num_rows, 2 * rows_left)
    else (0, row_offset, num_rows, rows_left) in
  header <- (if make_header then pack_header fmt mn rg num_rows num_cols else Ok header) ;;
  Ok (header, num_cols, bytes_col_header, bytes_offset, bytes_data, bytes_left).

(** kaldi_matrix.py:456-467 [_data_size] *)
Definition data_size (header : list byte) : res Z :=
  '(fmt, _, _, num_rows, num_cols) <- unpack_header header ;;
  let n := Z.of_nat (List.length header) in
  Ok (if fmt =? 1 then n + num_cols * (8 + num_rows)
      else if fmt =? 2 then n + 2 * num_rows * num_cols
      else n + num_rows * num_cols).

(** the format announced by the token (kaldi_matrix.py:680-741) *)
Definition fmt_of_token (t : string) : res Z :=
  if String.eqb t "CM" then Ok 1 else if String.eqb t "CM2" then Ok 2
  else if String.eqb t "CM3" then Ok 3 else Err ValueError.

(** kaldi_matrix.py:680-741: the column loop of format 1 *)
Fixpoint read_cols (n : nat) (f : file) (bytes_offset bytes_col bytes_left : Z) (data : list byte)
  : res (list byte * file) :=
  match n with
  | O => Ok (data, f)
  | S n' =>
      f <- (if 0 <? bytes_offset then f_seek_cur f bytes_offset else Ok f) ;;
      '(d, f) <- f_read f bytes_col ;;
      f <- (if 0 <? bytes_left then f_seek_cur f bytes_left else Ok f) ;;
      read_cols n' f bytes_offset bytes_col bytes_left (data ++ d)
  end.

(** kaldi_matrix.py:680-741 [KaldiCompressedMatrix.read], binary branch for data that starts
    with 'C'.  The argument [sequential_mode] is ignored by the code. *)
Definition cm_read (f : file) (row_offset num_rows : Z) : res (cm * file) :=
  '(token, f) <- read_token f true ;;
  fmt <- fmt_of_token token ;;
  '(h16, f) <- f_read f 16 ;;
  '(header, num_cols, bytes_col_header, bytes_offset, bytes_col, bytes_left) <-
     get_read_info (le_bytes 4 fmt ++ h16) row_offset num_rows ;;
  '(data, f) <-
    (if (bytes_offset =? 0) && (bytes_left =? 0) then
       '(d, f) <- f_read f (bytes_col_header + num_cols * bytes_col) ;; Ok (header ++ d, f)
     else if fmt =? 1 then
       '(col_header, f) <- f_read f bytes_col_header ;;
       '(d, f) <- read_cols (Z.to_nat num_cols) f bytes_offset bytes_col bytes_left [] ;;
       Ok (header ++ col_header ++ d, f)
     else
       f <- (if 0 <? bytes_offset then f_seek_cur f (bytes_offset * num_cols) else Ok f) ;;
       '(d, f) <- f_read f (bytes_col * num_cols) ;;
       f <- (if 0 <? bytes_left then f_seek_cur f (bytes_left * num_cols) else Ok f) ;;
       Ok (header ++ d, f)) ;;
  m <- cm_new data ;;
  Ok (m, f).

(** kaldi_matrix.py:745-767 [KaldiCompressedMatrix.write], binary branch, data not None.
    Another format writes no token (l.755-760 have no else). *)
Definition cm_write (m : cm) : res (list byte) :=
  tok <- (if c_fmt m =? 1 then write_token "CM" else if c_fmt m =? 2 then write_token "CM2"
          else if c_fmt m =? 3 then write_token "CM3" else Ok []) ;;
  Ok (tok ++ skipn 4 (c_data m)).

(** Decoding of one coded value to the 8 bytes of a float64: [d_u16 min range u] is
    _uint16_to_float (kaldi_matrix.py:520-522), [d_u8] is _uint8_to_float (526-528) and
    [d_chr min range col_header b] is _uncompress_column (586-597) with _char_to_float
    (627-638) applied to one byte.  They act on each coded value separately; the theorems about
    positions hold whatever the arithmetic is. *)
Record decoder := mk_decoder {
  d_u16 : elem -> elem -> Z -> elem;
  d_u8 : elem -> elem -> Z -> elem;
  d_chr : elem -> elem -> list byte -> Z -> elem }.

(** kaldi_matrix.py:642-664, format 1: column [i] is decoded from its 8-byte header and its
    [num_rows] bytes.  Simplification: a column with the wrong number of bytes is a ValueError
    (numpy would broadcast a column of one byte). *)
Definition uncompress_column (dec : decoder) (m : cm) (i : Z) : res (list elem) :=
  let header_offset := 20 + 8 * i in
  let data_offset := 20 + c_cols m * 8 + c_rows m * i in
  let col_header := slice (c_data m) header_offset (header_offset + 8) in
  let col_data := slice (c_data m) data_offset (data_offset + c_rows m) in
  if Nat.eqb (List.length col_header) 8 && (Z.of_nat (List.length col_data) =? c_rows m)
  then Ok (map (fun b => d_chr dec (c_min m) (c_range m) col_header (byte_val b)) col_data)
  else Err ValueError.

(** C-order elements of a matrix given by columns *)
Definition from_columns (r : nat) (cols : list (list elem)) : list elem :=
  concat (map (fun i => map (fun col => nth i col []) cols) (seq 0 r)).

(** kaldi_matrix.py:642-664 [to_ndarray] *)
Definition cm_to_ndarray (dec : decoder) (m : cm) : res km :=
  if c_fmt m =? 1 then
    if (c_rows m <? 0) || (c_cols m <? 0) then Err ValueError
    else
    cols <- mapM (uncompress_column dec m) (arange 0 (c_cols m)) ;;
    Ok (mk_km F64 (Mat (c_rows m) (c_cols m)) (from_columns (Z.to_nat (c_rows m)) cols))
  else if c_fmt m =? 2 then
    us <- frombuffer 2 (skipn 20 (c_data m)) ;;
    v <- reshape_ok (map (fun u => d_u16 dec (c_min m) (c_range m) (le_val u)) us) (c_rows m) (c_cols m) ;;
    Ok (mk_km F64 (Mat (c_rows m) (c_cols m)) v)
  else
    us <- frombuffer 1 (skipn 20 (c_data m)) ;;
    v <- reshape_ok (map (fun u => d_u8 dec (c_min m) (c_range m) (le_val u)) us) (c_rows m) (c_cols m) ;;
    Ok (mk_km F64 (Mat (c_rows m) (c_cols m)) v).

(** kaldi_matrix.py:56-154 [KaldiMatrix.read] (binary): dispatch on the next byte. *)
Definition km_read (dec : decoder) (f : file) (row_offset num_rows : Z) (sequential_mode : bool)
  : res (km * file) :=
  '(p, f) <- peek f 1 ;;
  if bytes_eqb p ["C"%char] then
    '(_, f) <- peek f 1 ;;                       (* l.695: KaldiCompressedMatrix.read peeks again *)
    '(m, f) <- cm_read f row_offset num_rows ;;
    a <- cm_to_ndarray dec m ;;
    Ok (a, f)
  else km_read_raw f row_offset num_rows sequential_mode.

(** kaldi_matrix.py:772-811 [KaldiCompressedMatrix.read_shape] for data starting with 'C' *)
Definition cm_read_shape (f : file) (sequential_mode : bool) : res (shape * file) :=
  '(token, f) <- read_token f true ;;
  fmt <- fmt_of_token token ;;
  '(h16, f) <- f_read f 16 ;;
  let header := le_bytes 4 fmt ++ h16 in
  '(_, _, _, num_rows, num_cols) <- unpack_header header ;;
  f <- (if sequential_mode then
          size <- data_size header ;;
          f_seek_cur f (size - Z.of_nat (List.length header))
        else Ok f) ;;
  Ok (Mat num_rows num_cols, f).

(** kaldi_matrix.py:193-234 [KaldiMatrix.read_shape] (binary) *)
Definition km_read_shape (f : file) (sequential_mode : bool) : res (shape * file) :=
  '(p, f) <- peek f 1 ;;
  if bytes_eqb p ["C"%char] then '(_, f) <- peek f 1 ;; cm_read_shape f sequential_mode
  else
    '(token, f) <- read_token f true ;;
    c0 <- tok_char token 0 ;;
    c1 <- tok_char token 1 ;;
    ndim <- bound_var (ndim_of c1) ;;
    '(num_rows, f) <- (if ndim then read_int32 f else Ok (1, f)) ;;
    '(num_cols, f) <- read_int32 f ;;
    f <- (if sequential_mode then
            dt <- bound_var (dtype_of c0) ;;
            f_seek_cur f (num_rows * num_cols * itemsize dt)
          else Ok f) ;;
    Ok (if ndim then Mat num_rows num_cols else Vec num_cols, f).
