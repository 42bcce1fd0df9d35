(** Model of hyperion/utils/scp_list.py (class SCPList). *)
From Verif Require Export Str ListUtils.
Open Scope Z_scope.

(** scp_list.py:31-37 (attributes).  The four columns and the lazily built key -> position dictionary
    (newest binding first; OrderedDict(...) keeps the last position of a repeated key). *)
Record scp : Type := mk_scp {
  s_key : list string;
  s_path : list string;
  s_off : option (list Z);
  s_rng : option (list (Z * Z));
  s_cache : option (list (string * Z))
}.

(** range_spec argument of the constructor: absent, a Python list, or a numpy n x 2 array
    (rows as pairs: the shape[1] == 2 assertion is built in the type). *)
Inductive rng_arg : Type :=
| RngNone
| RngList (l : list (Z * Z))
| RngArr (l : list (Z * Z)).

Definition rng_of (r : option (list (Z * Z))) : rng_arg :=
  match r with None => RngNone | Some l => RngArr l end.

Definition len_eqb {A B} (a : list A) (b : list B) : bool :=
  Nat.eqb (List.length a) (List.length b).

(** scp_list.py:31-57 [__init__] + [validate].  l.54-55: a non-empty range_spec given as a
    Python list is replaced by [np.array(self.offset)], whose shape has a single axis, so
    l.57 [shape[1]] raises IndexError (TypeError when offset is None, converting None to
    int64). *)
Definition scp_new (key path : list string) (off : option (list Z)) (rng : rng_arg) : res scp :=
  _ <- assert (len_eqb key path) ;;
  _ <- match off with None => Ok tt | Some o => assert (len_eqb key o) end ;;
  rng' <- match rng with
          | RngNone | RngList [] | RngArr [] => Ok None
          | RngList _ => match off with
                         | None => Err TypeError
                         | Some o => _ <- assert (len_eqb key o) ;; Err IndexError
                         end
          | RngArr l => _ <- assert (len_eqb key l) ;; Ok (Some l)
          end ;;
  Ok (mk_scp key path off rng' None).

(** scp_list.py:76-80 [_create_dict]. *)
Definition create_dict (key : list string) : list (string * Z) :=
  rev (combine key (map Z.of_nat (seq 0 (List.length key)))).

Definition fill_cache (s : scp) : scp :=
  match s_cache s with
  | Some _ => s
  | None => mk_scp (s_key s) (s_path s) (s_off s) (s_rng s) (Some (create_dict (s_key s)))
  end.

Definition cache_of (s : scp) : list (string * Z) :=
  match s_cache s with Some d => d | None => [] end.

Definition dict_find (d : list (string * Z)) (k : string) : option Z :=
  match find (fun p => eqb k (fst p)) d with Some p => Some (snd p) | None => None end.

(** scp_list.py:84-88 [get_index] *)
Definition get_index (s : scp) (k : string) : res Z * scp :=
  let s := fill_cache s in
  (match dict_find (cache_of s) k with Some i => Ok i | None => Err KeyError end, s).

(** scp_list.py:92-96 [__contains__] *)
Definition contains (s : scp) (k : string) : bool * scp :=
  let s := fill_cache s in
  (match dict_find (cache_of s) k with Some _ => true | None => false end, s).

(** offset / range of one position (scp_list.py:122-123) *)
Definition opt_item {A} (c : option (list A)) (i : Z) : res (option A) :=
  match c with None => Ok None | Some l => x <- get_item l i ;; Ok (Some x) end.

(** scp_list.py:99-127 [__getitem__] with a string key *)
Definition getitem_key (s : scp) (k : string)
  : res (string * option Z * option (Z * Z)) * scp :=
  let '(ri, s) := get_index s k in
  (i <- ri ;;
   o <- opt_item (s_off s) i ;;
   r <- opt_item (s_rng s) i ;;
   p <- get_item (s_path s) i ;;
   Ok (p, o, r), s).

(** scp_list.py:99-127 [__getitem__] with an integer index *)
Definition getitem_index (s : scp) (i : Z) : res (string * string * option Z * option (Z * Z)) :=
  o <- opt_item (s_off s) i ;;
  r <- opt_item (s_rng s) i ;;
  k <- get_item (s_key s) i ;;
  p <- get_item (s_path s) i ;;
  Ok (k, p, o, r).

(** scp_list.py:130-132 [add_prefix_to_filepath] *)
Definition add_prefix (s : scp) (prefix : string) : scp :=
  mk_scp (s_key s) (map (fun p => prefix ++ p)%string (s_path s)) (s_off s) (s_rng s) (s_cache s).

Definition opt_take {A} (c : option (list A)) (loc : list Z) : res (option (list A)) :=
  match c with None => Ok None | Some l => x <- take l loc ;; Ok (Some x) end.

Definition opt_mask {A} (c : option (list A)) (f : list bool) : res (option (list A)) :=
  match c with None => Ok None | Some l => x <- mask f l ;; Ok (Some x) end.

(** scp_list.py:136-144 [sort] (in place).  [idx] is what np.argsort returned. *)
Definition scp_sort (idx : list nat) (s : scp) : res scp :=
  kl <- sort_index idx (s_key s) false ;;
  let '(key, loc) := kl in
  path <- take (s_path s) loc ;;
  off <- opt_take (s_off s) loc ;;
  rng <- opt_take (s_rng s) loc ;;
  Ok (mk_scp key path off rng None).

(** scp_list.py:397-420 [shuffle] (in place).  [index] is the outcome of rng.shuffle on
    arange(len). *)
Definition scp_shuffle (index : list nat) (s : scp) : res (scp * list nat) :=
  let loc := map Z.of_nat index in
  key <- take (s_key s) loc ;;
  path <- take (s_path s) loc ;;
  off <- opt_take (s_off s) loc ;;
  rng <- opt_take (s_rng s) loc ;;
  Ok (mk_scp key path off rng None, index).

(** scp_list.py:245-269 [split] *)
Definition scp_split (s : scp) (idx num_parts : Z) (group_by_key : bool) : res scp :=
  kl <- (if group_by_key
         then split_list_group_by_key (s_key s) (s_key s) idx num_parts
         else split_list (s_key s) idx num_parts) ;;
  let '(key, loc) := kl in
  path <- take (s_path s) loc ;;
  off <- opt_take (s_off s) loc ;;
  rng <- opt_take (s_rng s) loc ;;
  scp_new key path off (rng_of rng).

(** np.concatenate over a list of optional arrays: a None element (a 0-d object array)
    raises ValueError. *)
Fixpoint concat_opt {A} (l : list (option (list A))) : res (list A) :=
  match l with
  | [] => Ok []
  | None :: _ => Err ValueError
  | Some x :: l' => y <- concat_opt l' ;; Ok (x ++ y)
  end.

(** scp_list.py:274-301 [merge].  Whether offsets / ranges are kept is decided by the first
    list only. *)
Definition scp_merge (ls : list scp) : res scp :=
  match ls with
  | [] => Err ValueError
  | s0 :: _ =>
      let key := concat (map s_key ls) in
      let path := concat (map s_path ls) in
      off <- match s_off s0 with
             | None => Ok None
             | Some _ => o <- concat_opt (map s_off ls) ;; Ok (Some o)
             end ;;
      rng <- match s_rng s0 with
             | None => Ok None
             | Some _ => r <- concat_opt (map s_rng ls) ;; Ok (Some r)
             end ;;
      scp_new key path off (rng_of rng)
  end.

(** common tail of filter / filter_paths: select all columns with mask [f]
    (scp_list.py:322-332, 354-364) *)
Definition mask_cols (f : list bool) (s : scp) : res scp :=
  key <- mask f (s_key s) ;;
  path <- mask f (s_path s) ;;
  off <- opt_mask (s_off s) f ;;
  rng <- opt_mask (s_rng s) f ;;
  scp_new key path off (rng_of rng).

(** scp_list.py:305-332 [filter] *)
Definition scp_filter (s : scp) (filter_key : list string) (keep : bool) : res scp :=
  let fk := if keep then filter_key else setdiff (s_key s) filter_key in
  _ <- assert (forallb (fun b => b) (fst (ismember fk (s_key s)))) ;;
  mask_cols (fst (ismember (s_key s) fk)) s.

(** scp_list.py:336-364 [filter_paths] *)
Definition scp_filter_paths (s : scp) (filter_key : list string) (keep : bool) : res scp :=
  let fk := if keep then filter_key else setdiff (s_path s) filter_key in
  _ <- assert (forallb (fun b => b) (fst (ismember fk (s_path s)))) ;;
  mask_cols (fst (ismember (s_path s) fk)) s.

(** scp_list.py:368-393 [filter_index] with an integer index array *)
Definition scp_filter_index (s : scp) (index : list Z) (keep : bool) : res scp :=
  let ix := if keep then index
            else setdiff (arange 0 (Z.of_nat (List.length (s_key s)))) index in
  key <- take (s_key s) ix ;;
  path <- take (s_path s) ix ;;
  off <- opt_take (s_off s) ix ;;
  rng <- opt_take (s_rng s) ix ;;
  scp_new key path off (rng_of rng).

(** scp_list.py:156-166: text of one range *)
Definition fmt_range (r : Z * Z) : string :=
  let '(r0, r1) := r in
  if (r0 =? 0) && (r1 =? 0) then ""%string
  else if r1 =? 0 then ("[" ++ fmt_d r0 ++ ":]")%string
  else ("[" ++ fmt_d r0 ++ ":" ++ fmt_d (r0 + r1) ++ "]")%string.

Definition sstr (c : ascii) : string := String c EmptyString.

(** lines of zip(key, path, range) (l.170-172) *)
Fixpoint lines3 (sep : ascii) (key path rng : list string) : list string :=
  match key, path, rng with
  | k :: ks, p :: ps, r :: rs => (k ++ sstr sep ++ p ++ r)%string :: lines3 sep ks ps rs
  | _, _, _ => []
  end.

(** lines of zip(key, path, offset, range) (l.173-175) *)
Fixpoint lines4 (sep osep : ascii) (key path : list string) (off : list Z) (rng : list string) : list string :=
  match key, path, off, rng with
  | k :: ks, p :: ps, o :: os, r :: rs =>
      (k ++ sstr sep ++ p ++ sstr osep ++ fmt_d o ++ r)%string :: lines4 sep osep ks ps os rs
  | _, _, _, _ => []
  end.

(** scp_list.py:148-175 [save]: the text written to the file.  Separators are single
    characters (the defaults are ' ' and ':'). *)
Definition scp_save (s : scp) (sep osep : ascii) : string :=
  let rng := match s_rng s with
             | None => map (fun _ => ""%string) (s_key s)
             | Some l => map fmt_range l
             end in
  let ls := match s_off s with
            | None => lines3 sep (s_key s) (s_path s) rng
            | Some o => lines4 sep osep (s_key s) (s_path s) o rng
            end in
  str_concat (map (fun l => l ++ nl_str)%string ls).

Definition get_pair_1 (f : string * option string) : res string :=
  match snd f with Some x => Ok x | None => Err IndexError end.

(** scp_list.py:197-198: offset of one line; a missing offset becomes -1 *)
Definition parse_offset (f : string * option string) : res Z :=
  match snd f with
  | None => Ok (-1)
  | Some t => match py_int t with Some z => Ok z | None => Err ValueError end
  end.

(** scp_list.py:208-216: range of one line.  f[1] of a range without ':' raises IndexError. *)
Definition parse_range (f : string * option string) : res (Z * Z) :=
  match snd f with
  | None => Ok (0, 0)
  | Some t =>
      let '(a, b) := split1 ":" (rstrip_if (fun c => Ascii.eqb c "]") t) in
      let a' := if isdecimal a then digits_val 0 a else 0 in
      match b with
      | None => Err IndexError
      | Some b => if isdecimal b then Ok (a', digits_val 0 b - a') else Ok (a', 0)
      end
  end.

Definition has_range (f : string * option string) : bool :=
  match snd f with Some _ => true | None => false end.

(** scp_list.py:180-219 [parse_script].  l.197: the first line decides whether offsets are
    expected.  l.200: the ValueError message refers to [f], which at that point is an
    unbound local of the function (Python 3 comprehension variables do not leak), so
    UnboundLocalError is what is raised. *)
Definition parse_script (script : list string) (osep : ascii)
  : res (list string * option (list Z) * option (list (Z * Z))) :=
  let file_range := map (split1 "[") script in
  let file_offset := map (fun f => split1 osep (fst f)) file_range in
  let file_path := map fst file_offset in
  match file_offset with
  | [] => Err IndexError
  | fo0 :: _ =>
      off <- match snd fo0 with
             | None => Ok None
             | Some _ =>
                 o <- mapM parse_offset file_offset ;;
                 if existsb (Z.eqb (-1)) o then Err UnboundLocalError else Ok (Some o)
             end ;;
      rng <- (if existsb has_range file_range
              then r <- mapM parse_range file_range ;; Ok (Some r)
              else Ok None) ;;
      Ok (file_path, off, rng)
  end.

(** scp_list.py:224-241 [load] from the text of the file *)
Definition scp_load (text : string) (sep osep : ascii) : res scp :=
  let fields := map (fun line => split1 sep (rstrip line)) (py_lines text) in
  let key := map fst fields in
  script <- mapM get_pair_1 fields ;;
  t <- parse_script script osep ;;
  let '(path, off, rng) := t in
  scp_new key path off (rng_of rng).

(** scp_list.py:424-445 [__eq__] *)
Definition opt_eqb {A} (eq : A -> A -> bool) (a b : option (list A)) : bool :=
  match a, b with
  | None, None => true
  | Some x, Some y => len_eqb x y && forallb (fun p => eq (fst p) (snd p)) (combine x y)
  | _, _ => false
  end.

Definition list_eqb {A} (eq : A -> A -> bool) (x y : list A) : bool :=
  len_eqb x y && forallb (fun p => eq (fst p) (snd p)) (combine x y).

Definition scp_eq (s t : scp) : bool :=
  if (List.length (s_key s) =? 0)%nat && (List.length (s_key t) =? 0)%nat then true
  else list_eqb eqb (s_key s) (s_key t) && list_eqb eqb (s_path s) (s_path t)
       && opt_eqb Z.eqb (s_off s) (s_off t)
       && opt_eqb (fun a b => (fst a =? fst b) && (snd a =? snd b)) (s_rng s) (s_rng t).

(** ** Histories *)

(** Operations that build a new list, or reorder the list in place. *)
Inductive scp_op : Type :=
| OpSort (idx : list nat)
| OpShuffle (idx : list nat)
| OpFilter (keys : list string) (keep : bool)
| OpFilterPaths (paths : list string) (keep : bool)
| OpFilterIndex (ix : list Z) (keep : bool)
| OpSplit (i P : Z) (group_by_key : bool)
| OpMerge (before after : list scp).     (* SCPList.merge(before + [self] + after) *)

Definition scp_step (s : scp) (o : scp_op) : res scp :=
  match o with
  | OpSort idx => scp_sort idx s
  | OpShuffle idx => r <- scp_shuffle idx s ;; Ok (fst r)
  | OpFilter k b => scp_filter s k b
  | OpFilterPaths k b => scp_filter_paths s k b
  | OpFilterIndex ix b => scp_filter_index s ix b
  | OpSplit i P g => scp_split s i P g
  | OpMerge b a => scp_merge (b ++ s :: a)
  end.

Fixpoint scp_run (s : scp) (ops : list scp_op) : res scp :=
  match ops with [] => Ok s | o :: ops' => s' <- scp_step s o ;; scp_run s' ops' end.

(** Calls on one object: queries (which may build the cache) and in-place updates. *)
Inductive scp_call : Type :=
| CGetIndex (k : string)
| CContains (k : string)
| CGetItem (k : string)
| CAddPrefix (p : string)
| CSort (idx : list nat)
| CShuffle (idx : list nat).

Definition scp_do (s : scp) (c : scp_call) : res scp :=
  match c with
  | CGetIndex k => Ok (snd (get_index s k))
  | CContains k => Ok (snd (contains s k))
  | CGetItem k => Ok (snd (getitem_key s k))
  | CAddPrefix p => Ok (add_prefix s p)
  | CSort idx => scp_sort idx s
  | CShuffle idx => r <- scp_shuffle idx s ;; Ok (fst r)
  end.

Fixpoint scp_calls (s : scp) (cs : list scp_call) : res scp :=
  match cs with [] => Ok s | c :: cs' => s' <- scp_do s c ;; scp_calls s' cs' end.
