(** Binary files as seen by the Kaldi archive code: io.BufferedReader and the struct module.

    Library behaviour (trusted, no source in /repo): [f.read], [f.seek], [f.tell], [f.peek],
    [struct.pack/unpack] with '<i', 'b', '<H', [np.frombuffer], [ndarray.tobytes].

    A reader is its contents, its position, and an arbitrary sequence [f_buf] that decides how
    many bytes each successive call of [f.peek] finds in the buffer: BufferedReader.peek returns
    at least one byte unless the end of file was reached, and otherwise any number of bytes,
    whatever the argument. *)
From Verif Require Export Str.
Open Scope list_scope.
Open Scope Z_scope.

Notation byte := ascii (only parsing).

Record file := mk_file {
  f_bytes : list byte;
  f_pos : nat;
  f_tick : nat;             (* number of calls of peek so far *)
  f_buf : nat -> nat        (* buffer content found by the n-th call, minus one *)
}.

(** What is left to read. *)
Definition rest (f : file) : list byte := skipn (f_pos f) (f_bytes f).

Definition open_file (bs : list byte) (buf : nat -> nat) : file := mk_file bs 0 0 buf.

Definition goto (f : file) (p : nat) : file := mk_file (f_bytes f) p (f_tick f) (f_buf f).

(** f.read(n) *)
Definition f_read (f : file) (n : Z) : res (list byte * file) :=
  if n <? -1 then Err ValueError
  else
    let d := if n =? -1 then rest f else firstn (Z.to_nat n) (rest f) in
    Ok (d, goto f (f_pos f + List.length d)).

(** f.peek(n): the argument is only a hint and is ignored by CPython. *)
Definition f_peek (f : file) : list byte * file :=
  (firstn (S (f_buf f (f_tick f))) (rest f),
   mk_file (f_bytes f) (f_pos f) (S (f_tick f)) (f_buf f)).

(** f.seek(d, 1) and f.seek(p, 0): a negative target is an OSError, a target past the end of
    the file is allowed. *)
Definition f_seek_cur (f : file) (d : Z) : res file :=
  let p := Z.of_nat (f_pos f) + d in
  if p <? 0 then Err IOErr else Ok (goto f (Z.to_nat p)).

Definition f_seek (f : file) (p : Z) : res file :=
  if p <? 0 then Err IOErr else Ok (goto f (Z.to_nat p)).

(** ** struct *)

Definition byte_val (b : byte) : Z := Z.of_N (N_of_ascii b).
Definition byte_of (z : Z) : byte := ascii_of_N (Z.to_N (z mod 256)).

(** [n] little-endian bytes of [z] *)
Fixpoint le_bytes (n : nat) (z : Z) : list byte :=
  match n with O => [] | S n' => byte_of z :: le_bytes n' (z / 256) end.

Fixpoint le_val (bs : list byte) : Z :=
  match bs with [] => 0 | b :: bs' => byte_val b + 256 * le_val bs' end.

(** struct.pack('<i', z), struct.unpack('<i', bs) *)
Definition pack_i (z : Z) : res (list byte) :=
  if (- 2 ^ 31 <=? z) && (z <? 2 ^ 31) then Ok (le_bytes 4 z) else Err StructError.

Definition unpack_i (bs : list byte) : res Z :=
  if Nat.eqb (List.length bs) 4
  then let v := le_val bs in Ok (if v <? 2 ^ 31 then v else v - 2 ^ 32)
  else Err StructError.

(** struct.unpack('b', bs) *)
Definition unpack_b (bs : list byte) : res Z :=
  match bs with
  | [b] => let v := byte_val b in Ok (if v <? 128 then v else v - 256)
  | _ => Err StructError
  end.

(** l[a:b] for 0 <= a *)
Definition slice {A} (l : list A) (a b : Z) : list A :=
  firstn (Z.to_nat (b - a)) (skipn (Z.to_nat a) l).

(** Successive blocks of [k] elements. *)
Fixpoint chunks {A} (n k : nat) (l : list A) : list (list A) :=
  match n with O => [] | S n' => firstn k l :: chunks n' k (skipn k l) end.

(** np.frombuffer(data, dtype) as the list of the bytes of each element; ValueError when the
    buffer is not a whole number of elements. *)
Definition frombuffer (item : nat) (data : list byte) : res (list (list byte)) :=
  if Nat.eqb (Nat.modulo (List.length data) item) 0
  then Ok (chunks (Nat.div (List.length data) item) item data)
  else Err ValueError.

(** s.encode('ascii') / bytes.decode('ascii') *)
Definition is_ascii (c : ascii) : bool := (nat_of_ascii c <? 128)%nat.
Definition encode_ascii (s : string) : res (list byte) :=
  if str_forallb is_ascii s then Ok (list_ascii_of_string s) else Err UnicodeErr.
Definition decode_ascii (bs : list byte) : res string :=
  if forallb is_ascii bs then Ok (string_of_list_ascii bs) else Err UnicodeErr.
