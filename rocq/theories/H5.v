(** Model of hyperion/io/h5_data_writer.py, hyperion/io/h5_data_reader.py and of the conversion
    of compressed matrices to and from HDF5 datasets (hyperion/utils/kaldi_matrix.py:283-335).

    h5py itself is trusted: a file is a finite map from names to datasets, [f.keys()] lists the
    names in increasing order, [create_dataset] refuses an existing name, slices of a dataset
    clip like Python slices.  Names with '/' (h5py groups) are not modelled; '.' is refused by
    h5py.  No transform, squeeze=False; casts between float32 and float64 are not modelled. *)
From Verif Require Export Ark.
Open Scope list_scope.
Open Scope Z_scope.

(** ** Coded values and attributes *)

(** the attributes of kaldi_matrix.py:283-307 *)
Record cattrs := mk_attrs { at_fmt : Z; at_min : elem; at_range : elem; at_perc : option (list byte) }.

(** a c x r array in C order -> its transpose (r x c) in C order *)
Definition transpose_flat (r c : nat) (l : list elem) : list elem :=
  concat (map (fun i => map (fun j => nth (j * r + i)%nat l []) (seq 0 c)) (seq 0 r)).

(** kaldi_matrix.py:283-307 [get_data_attrs]: the coded values (rows x cols, C order; a value is
    its 1 or 2 bytes) and the attributes. *)
Definition get_data_attrs (m : cm) : res (list elem * cattrs) :=
  let r := c_rows m in
  let c := c_cols m in
  if c_fmt m =? 1 then
    let data_offset := 20 + c * 8 in
    us <- frombuffer 1 (skipn (Z.to_nat data_offset) (c_data m)) ;;
    us <- reshape_ok us c r ;;
    Ok (transpose_flat (Z.to_nat r) (Z.to_nat c) us,
        mk_attrs 1 (c_min m) (c_range m) (Some (slice (c_data m) 20 data_offset)))
  else if c_fmt m =? 2 then
    us <- frombuffer 2 (skipn 20 (c_data m)) ;;
    us <- reshape_ok us r c ;;
    Ok (us, mk_attrs 2 (c_min m) (c_range m) None)
  else
    us <- frombuffer 1 (skipn 20 (c_data m)) ;;
    us <- reshape_ok us r c ;;
    Ok (us, mk_attrs (c_fmt m) (c_min m) (c_range m) None).

(** kaldi_matrix.py:311-335 [build_from_data_attrs] *)
Definition build_from_data_attrs (r c : Z) (data : list elem) (a : cattrs) : res cm :=
  h <- pack_header (at_fmt a) (at_min a) (at_range a) r c ;;
  if at_fmt a =? 1 then
    match at_perc a with
    | None => Err KeyError
    | Some p => cm_new ((h ++ p) ++ concat (transpose_flat (Z.to_nat c) (Z.to_nat r) data))
    end
  else cm_new (h ++ concat data).

(** ** Datasets *)

(** a float array, or coded values with attributes *)
Inductive dset := DRaw (m : km) | DCodes (r c : Z) (data : list elem) (a : cattrs).

Definition d_shape (d : dset) : shape := match d with DRaw m => k_shape m | DCodes r c _ _ => Mat r c end.

(** number of elements per index of the first axis *)
Definition stride (s : shape) : Z := match s with Vec _ => 1 | Mat _ c => c end.
Definition with0 (s : shape) (n : Z) : shape := match s with Vec _ => Vec n | Mat _ c => Mat n c end.

(** dset[lo:hi] for 0 <= lo, clipped *)
Definition d_slice (d : dset) (lo hi : Z) : dset :=
  let s := d_shape d in
  let lo := Z.min lo (shape0 s) in
  let hi := Z.max lo (Z.min hi (shape0 s)) in
  match d with
  | DRaw m => DRaw (mk_km (k_dt m) (with0 s (hi - lo)) (slice (k_data m) (lo * stride s) (hi * stride s)))
  | DCodes _ c data a => DCodes (hi - lo) c (slice data (lo * stride s) (hi * stride s)) a
  end.

(** h5_data_reader.py:26-62 [_read_h5_data] *)
Definition read_h5_data (dec : decoder) (d : dset) (row_offset num_rows : Z) : res km :=
  let data :=
    if 0 <? row_offset then
      if num_rows =? 0 then d_slice d row_offset (shape0 (d_shape d))
      else d_slice d row_offset (row_offset + num_rows)
    else if 0 <? num_rows then d_slice d 0 num_rows
    else d in
  m <- match data with
       | DRaw m => Ok m
       | DCodes r c codes a => x <- build_from_data_attrs r c codes a ;; cm_to_ndarray dec x
       end ;;
  _ <- assert ((num_rows =? 0) || (shape0 (k_shape m) =? num_rows)) ;;
  Ok m.

(** ** Files *)

Definition h5file : Type := list (string * dset).
Definition h5_get (f : h5file) (k : string) : option dset :=
  match find (fun p => String.eqb k (fst p)) f with Some p => Some (snd p) | None => None end.
Definition h5_in (f : h5file) (k : string) : bool := match h5_get f k with Some _ => true | None => false end.
Definition h5_item (f : h5file) (k : string) : res dset :=
  match h5_get f k with Some d => Ok d | None => Err KeyError end.
Definition h5_keys (f : h5file) : list string := unique (map fst f).
Definition create_dataset (f : h5file) (k : string) (d : dset) : res h5file :=
  if str_in "/" k then Err NotImplemented
  else if String.eqb k "." then Err ValueError
  else if h5_in f k then Err ValueError
  else Ok (f ++ [(k, d)]).

(** ** Writer *)

(** archive path, script separator, compress flag, compressor *)
Record w5cfg := mk_w5cfg { h_path : string; h_sep : ascii; h_compress : bool; h_compressor : km -> res cm }.
Record w5st := mk_w5st { h_file : h5file; h_scp : string }.
Definition w5st0 : w5st := mk_w5st [] "".

(** h5_data_writer.py:80-100 [_convert_data] *)
Definition convert5 (cfg : w5cfg) (m : km) : res dset :=
  if h_compress cfg then
    c <- h_compressor cfg m ;;
    '(codes, a) <- get_data_attrs c ;;
    Ok (DCodes (c_rows c) (c_cols c) codes a)
  else Ok (DRaw m).

(** h5_data_writer.py:104-131, one turn of the loop *)
Definition h5_write1 (cfg : w5cfg) (st : w5st) (kd : string * km) : res w5st :=
  let '(key, data) := kd in
  _ <- assert (is_token key) ;;
  d <- convert5 cfg data ;;
  f <- create_dataset (h_file st) key d ;;
  Ok (mk_w5st f (h_scp st ++ key ++ sstr (h_sep cfg) ++ h_path cfg ++ nl_str)%string).

(** h5_data_writer.py:104-131 [write] *)
Fixpoint h5_write (cfg : w5cfg) (st : w5st) (recs : list (string * km)) : res w5st :=
  match recs with [] => Ok st | r :: recs' => st <- h5_write1 cfg st r ;; h5_write cfg st recs' end.

Fixpoint h5_writes (cfg : w5cfg) (st : w5st) (calls : list (list (string * km))) : res w5st :=
  match calls with [] => Ok st | c :: cs => st <- h5_write cfg st c ;; h5_writes cfg st cs end.

(** ** Sequential reader of one file *)

Record seq5 := mk_seq5 { q_f : h5file; q_keys : list string; q_cur : nat }.

(** h5_data_reader.py:165-175 [__init__].  [part] is None when num_parts <= 1. *)
Definition seq5_open (f : h5file) (part : option (Z * Z)) (split_by_key : bool) : res seq5 :=
  let keys := h5_keys f in
  keys <- match part with
          | None => Ok keys
          | Some (idx, num) =>
              if split_by_key then '(k, _) <- split_list_group_by_key keys keys idx num ;; Ok k
              else '(k, _) <- split_list keys idx num ;; Ok k
          end ;;
  Ok (mk_seq5 f keys 0).

(** h5_data_reader.py:179-188 [reset], [eof] *)
Definition seq5_reset (r : seq5) : seq5 := mk_seq5 (q_f r) (q_keys r) 0.
Definition seq5_eof (r : seq5) : bool := Nat.eqb (q_cur r) (List.length (q_keys r)).

(** h5_data_reader.py:226-271, the loop of [read] *)
Fixpoint seq5_loop (n i : nat) (dec : decoder) (r : seq5) (row_offset num_rows : zarg)
  (acc : list (string * km)) : res (list (string * km) * seq5) :=
  match n with
  | O => Ok (acc, r)
  | S n' =>
      if seq5_eof r then Ok (acc, r)
      else
        key <- get_item (q_keys r) (Z.of_nat (q_cur r)) ;;
        ro <- zarg_at row_offset i ;;
        nr <- zarg_at num_rows i ;;
        d <- h5_item (q_f r) key ;;
        m <- read_h5_data dec d ro nr ;;
        seq5_loop n' (S i) dec (mk_seq5 (q_f r) (q_keys r) (S (q_cur r))) row_offset num_rows (acc ++ [(key, m)])
  end.

(** h5_data_reader.py:226-271 [read] *)
Definition seq5_read (dec : decoder) (r : seq5) (num_records : Z) (row_offset num_rows : zarg)
  : res (list (string * km) * seq5) :=
  let n := if num_records =? 0 then (List.length (q_keys r) - q_cur r)%nat else Z.to_nat num_records in
  seq5_loop n 0 dec r row_offset num_rows [].

(** h5_data_reader.py:192-222 [read_shapes] (assert_same_dim=False) *)
Fixpoint seq5_shapes_loop (n : nat) (r : seq5) (acc : list (string * shape)) : res (list (string * shape) * seq5) :=
  match n with
  | O => Ok (acc, r)
  | S n' =>
      if seq5_eof r then Ok (acc, r)
      else
        key <- get_item (q_keys r) (Z.of_nat (q_cur r)) ;;
        d <- h5_item (q_f r) key ;;
        seq5_shapes_loop n' (mk_seq5 (q_f r) (q_keys r) (S (q_cur r))) (acc ++ [(key, d_shape d)])
  end.

(** ** Random access to one file *)

(** h5_data_reader.py:550-600, one turn of the loop of [read] *)
Definition rnd5_read1 (dec : decoder) (f : h5file) (permissive : bool) (key : string) (row_offset num_rows : zarg) (i : nat) : res km :=
  if negb (h5_in f key) then (if permissive then Ok empty_array else Err BareException)
  else
    ro <- zarg_at row_offset i ;;
    nr <- zarg_at num_rows i ;;
    d <- h5_item f key ;;
    read_h5_data dec d ro nr.

Fixpoint rnd5_loop (i : nat) (dec : decoder) (f : h5file) (permissive : bool) (keys : list string)
  (row_offset num_rows : zarg) : res (list km) :=
  match keys with
  | [] => Ok []
  | k :: ks =>
      x <- rnd5_read1 dec f permissive k row_offset num_rows i ;;
      xs <- rnd5_loop (S i) dec f permissive ks row_offset num_rows ;;
      Ok (x :: xs)
  end.

(** h5_data_reader.py:550-600 [read] *)
Definition rnd5_read (dec : decoder) (f : h5file) (permissive : bool) (keys : list string) (row_offset num_rows : zarg)
  : res (list km) :=
  _ <- assert (zarg_len_ok row_offset (List.length keys)) ;;
  _ <- assert (zarg_len_ok num_rows (List.length keys)) ;;
  rnd5_loop 0 dec f permissive keys row_offset num_rows.

(** ** Readers through a script *)

(** Files on disk.  Simplification: the readers keep files open between calls; an open file
    shows what is on disk, so opening is looking up the path. *)
Definition disk5 : Type := string -> option h5file.
Definition open5 (d : disk5) (p : string) : res h5file := match d p with Some f => Ok f | None => Err IOErr end.

(** h5_data_reader.py:276-305: script and next item *)
Record sscr5 := mk_sscr5 { z_scp : scp; z_cur : nat }.
Definition sscr5_eof (r : sscr5) : bool := Nat.eqb (z_cur r) (List.length (s_key (z_scp r))).

(** h5_data_reader.py:368-418, the loop of [read].  The offset column of the script is ignored. *)
Fixpoint sscr5_loop (n i : nat) (dec : decoder) (dk : disk5) (r : sscr5) (row_offset num_rows : zarg)
  (acc : list (string * km)) : res (list (string * km) * sscr5) :=
  match n with
  | O => Ok (acc, r)
  | S n' =>
      if sscr5_eof r then Ok (acc, r)
      else
        '(key, path, offset, range) <- getitem_index (z_scp r) (Z.of_nat (z_cur r)) ;;
        ro <- zarg_at row_offset i ;;
        nr <- zarg_at num_rows i ;;
        '(ro, nr) <- combine_ranges range ro nr ;;
        f <- open5 dk path ;;
        d <- h5_item f key ;;
        m <- read_h5_data dec d ro nr ;;
        sscr5_loop n' (S i) dec dk (mk_sscr5 (z_scp r) (S (z_cur r))) row_offset num_rows (acc ++ [(key, m)])
  end.

(** h5_data_reader.py:368-418 [read] *)
Definition sscr5_read (dec : decoder) (dk : disk5) (r : sscr5) (num_records : Z) (row_offset num_rows : zarg)
  : res (list (string * km) * sscr5) :=
  let n := if num_records =? 0 then (List.length (s_key (z_scp r)) - z_cur r)%nat else Z.to_nat num_records in
  sscr5_loop n 0 dec dk r row_offset num_rows [].

(** h5_data_reader.py:719-782, one turn of the loop of [read] (random access).  The dictionary
    of the script is built on demand. *)
Definition rscr5_read1 (dec : decoder) (dk : disk5) (permissive : bool) (s : scp) (key : string)
  (row_offset num_rows : zarg) (i : nat) : res (km * scp) :=
  let '(present, s) := contains s key in
  if negb present then (if permissive then Ok (empty_array, s) else Err BareException)
  else
    let '(ri, s) := get_index s key in
    idx <- ri ;;
    '(_, path, offset, range) <- getitem_index s idx ;;
    ro <- zarg_at row_offset i ;;
    nr <- zarg_at num_rows i ;;
    '(ro, nr) <- combine_ranges range ro nr ;;
    f <- open5 dk path ;;
    if negb (h5_in f key) then (if permissive then Ok (empty_array, s) else Err BareException)
    else d <- h5_item f key ;; m <- read_h5_data dec d ro nr ;; Ok (m, s).

Fixpoint rscr5_loop (i : nat) (dec : decoder) (dk : disk5) (permissive : bool) (s : scp) (keys : list string)
  (row_offset num_rows : zarg) : res (list km * scp) :=
  match keys with
  | [] => Ok ([], s)
  | k :: ks =>
      '(x, s) <- rscr5_read1 dec dk permissive s k row_offset num_rows i ;;
      '(xs, s) <- rscr5_loop (S i) dec dk permissive s ks row_offset num_rows ;;
      Ok (x :: xs, s)
  end.

(** h5_data_reader.py:719-782 [read] *)
Definition rscr5_read (dec : decoder) (dk : disk5) (permissive : bool) (s : scp) (keys : list string)
  (row_offset num_rows : zarg) : res (list km * scp) :=
  _ <- assert (zarg_len_ok row_offset (List.length keys)) ;;
  _ <- assert (zarg_len_ok num_rows (List.length keys)) ;;
  rscr5_loop 0 dec dk permissive s keys row_offset num_rows.
