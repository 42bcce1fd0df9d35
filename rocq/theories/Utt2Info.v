(** Model of hyperion/utils/utt2info.py for tables with one info field (key, info).
    Not modelled: more info fields, save/load (pandas csv), __cmp__. *)
From Verif Require Export Base ListUtils Segments.
From Verif Require Import Str.
Open Scope list_scope.
Open Scope Z_scope.

(** the table: rows (key, info); and the lazily built key -> position dictionary (utt2info.py:31-35) *)
Notation u2row := (string * string)%type.
Record u2i := mk_u2i { u_rows : list u2row; u_dict : option (list (string * Z)) }.
Definition u2i_new (rows : list u2row) : u2i := mk_u2i rows None.

(** utt2info.py:47-57 [create]: np.vstack of two arrays of different lengths is a ValueError *)
Definition u2i_create (key info : list string) : res u2i :=
  if (List.length key =? List.length info)%nat then Ok (u2i_new (combine key info)) else Err ValueError.

(** utt2info.py:94-105 [_create_dict], [get_index]: OrderedDict((k,i) for ...), a later pair overwrites an earlier one *)
Fixpoint enum_from (i : Z) (l : list string) : list (string * Z) := match l with [] => [] | x :: l => (x, i) :: enum_from (i + 1) l end.
Definition dict_last (d : list (string * Z)) (k : string) : option Z := match find (fun p => eqb k (fst p)) (rev d) with Some p => Some (snd p) | None => None end.
Definition u2i_get_index (o : u2i) (k : string) : res Z * u2i :=
  let d := match u_dict o with Some d => d | None => enum_from 0 (map fst (u_rows o)) end in
  (match dict_last d k with Some i => Ok i | None => Err KeyError end, mk_u2i (u_rows o) (Some d)).

(** utt2info.py:113-141 [__getitem__]: by key with one row of that key; with several rows pandas returns a table and the
    first ROW is dropped instead of the first column (the result is then an array of rows); by position *)
Inductive got := Info (s : string) | Rows (l : list u2row).
Definition u2i_getitem_key (o : u2i) (k : string) : res got :=
  match loc_rows fst (u_rows o) k with [] => Err KeyError | [r] => Ok (Info (snd r)) | _ :: rows => Ok (Rows rows) end.
Definition u2i_getitem_pos (o : u2i) (i : Z) : res u2row := get_item (u_rows o) i.

(** utt2info.py:145-152 [sort]: pandas sort_index / np.argsort, the order of equal elements is not specified: [idx] is the order found *)
Definition u2i_reorder (o : u2i) (idx : list nat) : res u2i := rows <- take (u_rows o) (map Z.of_nat idx) ;; Ok (u2i_new rows).

(** utt2info.py:184-202 [split] *)
Definition u2i_split (o : u2i) (idx num_parts : Z) (group_by_info : bool) : res u2i :=
  'p <- (if group_by_info then split_list_group_by_key (map snd (u_rows o)) (map snd (u_rows o)) idx num_parts
         else split_list (map fst (u_rows o)) idx num_parts) ;;
  rows <- take (u_rows o) (snd p) ;; Ok (u2i_new rows).

(** utt2info.py:206-218 [merge]: pd.concat of no tables is a ValueError *)
Definition u2i_merge (l : list u2i) : res u2i := match l with [] => Err ValueError | _ => Ok (u2i_new (concat (map u_rows l))) end.

(** utt2info.py:222-236 [filter] *)
Definition u2i_filter (o : u2i) (keys : list string) (keep : bool) : res u2i :=
  let keys := if keep then keys else setdiff (map fst (u_rows o)) keys in
  rows <- loc_list fst (u_rows o) keys ;; Ok (u2i_new rows).

(** utt2info.py:240-263 [filter_info] with an array of values *)
Definition u2i_filter_info (o : u2i) (vals : list string) (keep : bool) : res u2i :=
  let vals := if keep then vals else setdiff (map snd (u_rows o)) vals in
  if forallb (fun b => b) (fst (ismember vals (map snd (u_rows o)))) then
    rows <- mask (fst (ismember (map snd (u_rows o)) vals)) (u_rows o) ;; Ok (u2i_new rows)
  else Err BareException.

(** utt2info.py:267-284 [filter_index] *)
Definition u2i_filter_index (o : u2i) (index : list Z) (keep : bool) : res u2i :=
  let index := if keep then index else setdiff (arange 0 (Z.of_nat (List.length (u_rows o)))) index in
  rows <- take (u_rows o) index ;; Ok (u2i_new rows).
