(** Model of hyperion/helpers/sequence_reader.py:23-293 (SequenceReader) and sequence_class_reader.py:25-53 (SequenceClassReader).
    The data file is replaced by the lengths of the sequences, and the vectors returned by the requests made to it: (dataset, first frame, number of frames) for
    read_slice, (dataset, number of frames) for the random reads and for whole sequences. A shuffle is an arbitrary reordering. Lengths, limits and
    overlap are integers and the quotient in num_subseqs is exact; overlap >= max_seq_length, where the code divides by zero or a negative number, is rejected
    here. return_3d, feature normalisation and argument parsing are not modelled. *)
From Coq Require Import ZArith List Bool Arith String.
From Verif Require Import Base Mat.
Import ListNotations.
Open Scope list_scope. Open Scope Z_scope.

Inductive mode := Sequential | Random | Random1.      (* 'sequential'; 'random_slice', 'random_samples'; the same with '_1seq' *)
Record conf := mk_conf { c_batch : nat; c_min : Z; c_max : option Z; c_overlap : Z; c_mode : mode; c_shuffle : bool }.
Definition seqs := list (string * Z).                  (* scp.file_path with seq_length *)
Record state := mk_state { s_seqs : seqs; s_cur : nat; s_batch : Z; s_sub : list Z; s_frame : list Z }.
Inductive request := Whole (key : string) | Slice (key : string) (first num : Z) | Rand (key : string) (num : Z).

(** num_subseqs, sequence_reader.py:91-104 *)
Definition num_sub (c : conf) (l : Z) : Z :=
  match c_max c, c_mode c with
  | None, _ | _, Random1 => if c_min c <=? l then 1 else 0
  | Some mx, _ =>
    let shift := mx - c_overlap c in
    let n := (l - c_overlap c) / shift in
    n + (if c_min c <=? l - n * shift then 1 else 0)
  end.
Definition zsum (l : list Z) : Z := fold_right Z.add 0 l.
Definition total (c : conf) (s : seqs) : Z := zsum (map (fun p => num_sub c (snd p)) s).
(** num_batches, sequence_reader.py:122-126 *)
Definition num_batches (c : conf) (s : seqs) : res Z := if (c_batch c =? 0)%nat then Err ZeroDivisionError else Ok (total c s / Z.of_nat (c_batch c)).
Definition zeros (s : seqs) : list Z := map (fun _ => 0) s.
(** __init__, sequence_reader.py:26-66 *)
Definition reader_new (s : seqs) : state := mk_state s 0 (-1) (zeros s) (zeros s).
(** reset, sequence_reader.py:130-149: [perm] is the order given by the shuffle *)
Definition reset (c : conf) (perm : list nat) (st : state) : res state :=
  s <- (if c_shuffle c then mapM (fun i => match nth_error (s_seqs st) i with Some p => Ok p | None => Err IndexError end) perm else Ok (s_seqs st)) ;;
  Ok (mk_state s 0 0 (zeros s) (zeros s)).

(** read_full_seqs, sequence_reader.py:186-203 *)
Fixpoint full_loop (c : conf) (rest : seqs) (cur : nat) (keys : list request) : nat * list request :=
  match rest with
  | [] => (cur, keys)
  | (k, l) :: rest =>
    let keys := if c_min c <? l then keys ++ [Whole k] else keys in
    if (c_min c <? l) && (len keys =? c_batch c)%nat then (S cur, keys) else full_loop c rest (S cur) keys
  end.
Definition read_full (c : conf) (st : state) : res (list request * state) :=
  if c_min c =? 0 then
    let keys := map (fun p => Whole (fst p)) (firstn (c_batch c) (skipn (s_cur st) (s_seqs st))) in
    Ok (keys, mk_state (s_seqs st) (s_cur st + c_batch c) (s_batch st) (s_sub st) (s_frame st))
  else
    let '(cur, keys) := full_loop c (skipn (s_cur st) (s_seqs st)) (s_cur st) [] in
    if (len keys =? c_batch c)%nat then Ok (keys, mk_state (s_seqs st) cur (s_batch st) (s_sub st) (s_frame st)) else Err AssertionError.

(** the loops of _read_subseqs_sequential and _read_subseqs_random, sequence_reader.py:207-231 and 264-293: one visit *)
Definition visit (c : conf) (mx : Z) (st : state) (x : list request) : res (state * list request) :=
  match nth_error (s_seqs st) (s_cur st), nth_error (s_sub st) (s_cur st), nth_error (s_frame st) (s_cur st) with
  | Some (k, l), Some j, Some f =>
    let next := Nat.modulo (s_cur st + 1) (len (s_seqs st)) in
    if j <? num_sub c l then
      let r := match c_mode c with
               | Sequential => Slice k f (Z.min (l - f) mx)
               | _ => Rand k (if num_sub c l =? 1 then Z.min mx l else mx)
               end in
      Ok (mk_state (s_seqs st) next (s_batch st) (set_nth (s_sub st) (s_cur st) (j + 1))
            (match c_mode c with Sequential => set_nth (s_frame st) (s_cur st) (f + (mx - c_overlap c)) | _ => s_frame st end), x ++ [r])
    else Ok (mk_state (s_seqs st) next (s_batch st) (s_sub st) (s_frame st), x)
  | _, _, _ => Err IndexError
  end.
Fixpoint sub_loop (c : conf) (mx : Z) (fuel : nat) (st : state) (x : list request) : res (state * list request) :=
  match fuel with
  | O => Ok (st, x)
  | S fuel => '(st, x) <- visit c mx st x ;; if (len x =? c_batch c)%nat then Ok (st, x) else sub_loop c mx fuel st x
  end.
Definition read_subseqs (c : conf) (mx : Z) (st : state) : res (list request * state) :=
  '(st', x) <- sub_loop c mx (Z.to_nat (total c (s_seqs st))) st [] ;;
  if (len x =? c_batch c)%nat then Ok (x, st') else Err AssertionError.
(** _read_subseqs_random_1seq, sequence_reader.py:235-260 *)
Fixpoint loop1 (c : conf) (mx : Z) (rest : seqs) (cur : nat) (x : list request) : nat * list request :=
  match rest with
  | [] => (cur, x)
  | (k, l) :: rest =>
    let x := if 0 <? num_sub c l then x ++ [Rand k (Z.min mx l)] else x in
    if (len x =? c_batch c)%nat then (S cur, x) else loop1 c mx rest (S cur) x
  end.
Definition read_1seq (c : conf) (mx : Z) (st : state) : res (list request * state) :=
  let '(cur, x) := loop1 c mx (skipn (s_cur st) (s_seqs st)) (s_cur st) [] in
  if (len x =? c_batch c)%nat then Ok (x, mk_state (s_seqs st) cur (s_batch st) (s_sub st) (s_frame st)) else Err AssertionError.

(** read, sequence_reader.py:153-175 *)
Definition read_batch (c : conf) (st : state) : res (list request * state) :=
  match c_max c with
  | None => read_full c st
  | Some mx => if mx - c_overlap c <=? 0 then Err ZeroDivisionError else
    match c_mode c with Sequential | Random => read_subseqs c mx st | Random1 => read_1seq c mx st end
  end.
Definition read (c : conf) (perm : list nat) (st : state) : res (list request * state) :=
  nb <- num_batches c (s_seqs st) ;;
  st <- (if (s_batch st =? nb) || (s_batch st =? -1) then reset c perm st else Ok st) ;;
  '(x, st) <- read_batch c st ;;
  Ok (x, mk_state (s_seqs st) (s_cur st) (s_batch st + 1) (s_sub st) (s_frame st)).

(** ** SequenceClassReader *)
Definition req_key (r : request) : string := match r with Whole k | Slice k _ _ | Rand k _ => k end.
(** the later of equal names wins in a dictionary *)
Definition lookup {B} (k : string) (d : list (string * B)) : option B := option_map snd (find (fun p => eqb (fst p) k) (rev d)).
(** classes: first words of the lines of classes_file; scp: (key, file_path), the key being the class *)
Definition class_dict (classes : list string) : list (string * nat) := combine classes (seq 0 (len classes)).
Definition num_classes (classes : list string) : nat := len (unique classes).
Definition key_class (classes : list string) (scp : list (string * string)) : res (list (string * nat)) :=
  mapM (fun p => match lookup (fst p) (class_dict classes) with Some i => Ok (snd p, i) | None => Err KeyError end) scp.
Definition one_row (n : nat) (d : list (string * nat)) (k : string) : res (list Z) :=
  match lookup k d with
  | None => Err KeyError
  | Some i => if (i <? n)%nat then Ok (set_nth (repeat 0 n) i 1) else Err IndexError
  end.
Definition class_rows (classes : list string) (scp : list (string * string)) (x : list request) : res (list (list Z)) :=
  d <- key_class classes scp ;; mapM (fun r => one_row (num_classes classes) d (req_key r)) x.
