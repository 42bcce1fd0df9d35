(** Model of hyperion/utils/segment_list.py, hyperion/utils/rttm.py and the merging of
    hyperion/utils/ext_segment_list.py.
    Times are exact rationals (the code has binary64).  A pandas dataframe is the list of its rows in
    order; [df.loc[key]] with a list of keys gives, for each key in turn, all rows with that key and
    raises KeyError when there is none. *)
From Coq Require Import QArith Qround.
From Verif Require Export Folds.
Open Scope list_scope.
Open Scope Z_scope.

(** ** segment_list.py *)

Record seg := mk_seg { sg_id : string; sg_file : string; sg_tb : Q; sg_te : Q }.
Record seg_list := mk_sl { sl_segs : list seg; sl_by_file : bool }.

(** segment_list.py:31-40, 54-65: constructor and [validate] *)
Definition sl_new (segs : list seg) (by_file : bool) : res seg_list :=
  _ <- assert (forallb (fun s => Qle_bool (sg_tb s) (sg_te s)) segs) ;; Ok (mk_sl segs by_file).

(** segment_list.py:31-40, 70-80: the index column *)
Definition sl_key (by_file : bool) (s : seg) : string := if by_file then sg_file s else sg_id s.
Definition sl_uniq_files (o : seg_list) : list string := unique (map sg_file (sl_segs o)).

(** [df.loc[keys]] *)
Definition loc_rows {A} (key : A -> string) (rows : list A) (k : string) : list A := filter (fun r => eqb (key r) k) rows.
Definition loc_list {A} (key : A -> string) (rows : list A) (keys : list string) : res (list A) :=
  rs <- mapM (fun k => match loc_rows key rows k with [] => Err KeyError | r => Ok r end) keys ;; Ok (concat rs).

(** segment_list.py:252-257 [filter] *)
Definition sl_filter (o : seg_list) (keys : list string) (keep : bool) : res seg_list :=
  let keys := if keep then keys else setdiff (map (sl_key (sl_by_file o)) (sl_segs o)) keys in
  df <- loc_list (sl_key (sl_by_file o)) (sl_segs o) keys ;; sl_new df (sl_by_file o).

(** segment_list.py:261-267 [split] *)
Definition sl_split (o : seg_list) (idx num_parts : Z) : res seg_list :=
  p <- split_list (if sl_by_file o then sl_uniq_files o else map sg_id (sl_segs o)) idx num_parts ;;
  df <- loc_list (sl_key (sl_by_file o)) (sl_segs o) (fst p) ;; sl_new df (sl_by_file o).

(** segment_list.py:272-277 [merge] *)
Definition sl_merge (ls : list seg_list) (by_file : bool) : res seg_list := sl_new (concat (map sl_segs ls)) by_file.

(** segment_list.py:153-169 [getitem_by_key] with index_by_file.  pandas returns a Series, not a
    DataFrame, when the key has one row; the constructor then assigns a string to its index and raises *)
Definition sl_get_file (o : seg_list) (file : string) : res seg_list :=
  match loc_rows sg_file (sl_segs o) file with
  | [] => Err KeyError
  | [_] => Err TypeError
  | df => sl_new df false
  end.

(** segment_list.py:173-194 [getitem_by_index] with index_by_file: uses the iterator position
    [iter_idx] instead of [index] *)
Definition sl_get_file_number (o : seg_list) (iter_idx index : nat) : res seg_list :=
  if Nat.ltb index (len (sl_uniq_files o)) then
    k <- get_item (sl_uniq_files o) (Z.of_nat iter_idx) ;; sl_get_file o k
  else Err BareException.

(** segment_list.py:293-296 [np.round(t*1000/frame_shift).astype(int)] *)
Definition frame_of (shift : positive) (t : Q) : Z := round_half_even (Qnum t * 1000) (Zpos (Qden t * shift)).

(** Python slice bounds and slice assignment [v[a:b] = x] *)
Definition slice_ix (n i : Z) : Z := Z.max 0 (Z.min n (if i <? 0 then i + n else i)).
Definition slice_set {A} (v : list A) (a b : Z) (x : A) : list A :=
  let n := Z.of_nat (len v) in
  map (fun p => if (slice_ix n a <=? Z.of_nat (fst p)) && (Z.of_nat (fst p) <? slice_ix n b) then x else snd p)
      (combine (seq 0 (len v)) v).

(** segment_list.py:280-311 [to_bin_vad].  Without [num_frames]: the end of the last segment of the
    file if indexed by file, otherwise [self.frame_shift] does not exist. *)
Definition to_bin_vad (o : seg_list) (key : string) (shift : positive) (num_frames : option Z) : res (list Z) :=
  match loc_rows (sl_key (sl_by_file o)) (sl_segs o) key with
  | [] => Err KeyError
  | rows =>
    let tb := map (fun s => frame_of shift (sg_tb s)) rows in
    let te := map (fun s => frame_of shift (sg_te s)) rows in
    nf <- match num_frames with
          | Some n => Ok n
          | None => if sl_by_file o then get_item te (-1) else Err AttributeError
          end ;;
    if nf <? 0 then Err ValueError else
    let te := map (Z.min (nf - 1)) te in
    Ok (fold_left (fun v p => slice_set v (fst p) (snd p + 1) 1) (combine tb te) (repeat 0 (Z.to_nat nf)))
  end.

(** ** rttm.py *)

(** one row; [r_rest] stands for the columns that are only carried along (chnl, ortho, stype, conf, slat) *)
Record row := mk_row { r_type : string; r_file : string; r_name : string; r_tb : Q; r_dur : Q; r_rest : string }.
Definition r_end (r : row) : Q := (r_tb r + r_dur r)%Q.

(** rttm.py:136-140 [validate] *)
Fixpoint rttm_valid (rows : list row) : bool :=
  match rows with
  | a :: ((b :: _) as l) => (Qle_bool (r_tb a) (r_tb b) || negb (eqb (r_file b) (r_file a))) && rttm_valid l
  | _ => true
  end.

(** rttm.py:333-336: the rows that continue the previous one *)
Definition continues (margin : Q) (a b : row) : bool :=
  eqb (r_file b) (r_file a) && eqb (r_type b) (r_type a) && eqb (r_name b) (r_name a) && Qle_bool (r_tb b - r_tb a - r_dur a)%Q margin.

(** comparison of each row with the previous one ([df.shift(1)]; the first row compares as False) *)
Fixpoint shifted (f : row -> row -> bool) (rows : list row) : list bool :=
  match rows with
  | a :: ((b :: _) as l) => f a b :: shifted f l
  | _ => []
  end.
Definition vs_prev (f : row -> row -> bool) (rows : list row) : list bool :=
  match rows with [] => [] | _ => false :: shifted f rows end.

Fixpoint upd {A} (l : list A) (i : nat) (f : A -> A) : list A :=
  match l, i with
  | [], _ => []
  | x :: l, O => f x :: l
  | x :: l, S i => x :: upd l i f
  end.

Definition set_dur (d : Q) (r : row) : row := mk_row (r_type r) (r_file r) (r_name r) (r_tb r) d (r_rest r).
Definition set_tb (t : Q) (r : row) : row := mk_row (r_type r) (r_file r) (r_name r) t (r_dur r) (r_rest r).
Definition set_type (t : string) (r : row) : row := mk_row t (r_file r) (r_name r) (r_tb r) (r_dur r) (r_rest r).
Definition row0 : row := mk_row EmptyString EmptyString EmptyString 0%Q 0%Q EmptyString.

(** rttm.py:342-347: one turn of the loop *)
Definition merge_turn (index : list bool) (rows : list row) (i : nat) : list row :=
  if nth i index false then
    let tbeg := r_tb (nth (i - 1) rows row0) in
    let tend := r_end (nth i rows row0) in
    upd (upd rows (i - 1) (set_dur (tend - tbeg)%Q)) i (set_type "DROP")
  else rows.

(** rttm.py:330-349 [merge_adjacent_segments] *)
Definition rttm_merge (margin : Q) (rows : list row) : list row :=
  let index := vs_prev (continues margin) rows in
  let rows := fold_left (merge_turn index) (rev (seq 1 (len rows - 1))) rows in
  filter (fun r => negb (eqb (r_type r) "DROP"%string)) rows.

(** rttm.py:459-479 [eliminate_overlaps] for an RTTM indexed by file: the two sides of each masked
    assignment then carry equal labels, so pandas assigns by position.  [avg i] is the middle of the
    overlap of rows [i-1] and [i]. *)
Definition overlaps (a b : row) : bool :=
  eqb (r_file b) (r_file a) && eqb (r_type b) (r_type a) && negb (Qle_bool (r_end a) (r_tb b)).
Definition mid (a b : row) : Q := ((r_tb b + r_end a) / 2)%Q.
Definition rttm_elim (rows : list row) : list row :=
  let index := vs_prev overlaps rows in
  let avg i := mid (nth (i - 1) rows row0) (nth i rows row0) in
  let one (p : nat * row) :=
    let i := fst p in
    let r := snd p in
    let r1 := if nth i index false then set_tb (avg i) r else r in
    let r2 := if nth (S i) index false then set_dur (avg (S i) - r_tb r)%Q r1 else r1 in
    if nth i index false then set_dur (r_end r - avg i)%Q r2 else r2 in
  map one (combine (seq 0 (len rows)) rows).

(** Simplification in [rttm_elim]: the second assignment reads [tbeg[index_1]] possibly after the first
    one has changed it in place; rows for which that matters are overwritten by the third assignment. *)

(** pandas [unique()]: distinct values in order of appearance *)
Fixpoint uniq_first (l : list string) : list string :=
  match l with [] => [] | x :: l => x :: filter (fun y => negb (eqb y x)) (uniq_first l) end.

(** rttm.py:396-401, 430-431: does the labelled row [r] touch an end of the segment [tb,te]? *)
Definition touches (tb te : Q) (r : row) : bool :=
  (Qle_bool (r_tb r) tb && negb (Qle_bool (r_end r) tb)) || (negb (Qle_bool te (r_tb r)) && Qle_bool te (r_end r)).
Definition name_field (sep : string) (rs : list row) : string * nat :=
  match rs with
  | [] => ("<NA>"%string, 0%nat)
  | _ => let u := uniq_first (map r_name rs) in (String.concat sep u, len u)
  end.

(** rttm.py:388-411 [get_segment_names_slow] *)
Definition names_slow (rows : list row) (segs : list seg) (sep type : string) : list (string * nat) :=
  map (fun s => name_field sep (filter (fun r => eqb (r_type r) type && eqb (r_file r) (sg_file s) && touches (sg_tb s) (sg_te s) r) rows)) segs.

(** rttm.py:414-442 [get_segment_names]: keeps the rows of the previous file; they are not defined
    before a file name differs from the empty string *)
Fixpoint names_loop (rows : list row) (sep : string) (prev : string) (segf : option (list row)) (segs : list seg) : res (list (string * nat)) :=
  match segs with
  | [] => Ok []
  | s :: segs =>
    let '(prev, segf) := if eqb (sg_file s) prev then (prev, segf)
                         else (sg_file s, Some (filter (fun r => eqb (r_file r) (sg_file s)) rows)) in
    match segf with
    | None => Err UnboundLocalError
    | Some f => rest <- names_loop rows sep prev segf segs ;; Ok (name_field sep (filter (touches (sg_tb s) (sg_te s)) f) :: rest)
    end
  end.
Definition names_fast (rows : list row) (segs : list seg) (sep type : string) : res (list (string * nat)) :=
  names_loop (filter (fun r => eqb (r_type r) type) rows) sep EmptyString None segs.

(** rttm.py:526-536 [to_segment_list]: ids from the whole seconds ([%07d] of a float truncates; the
    decimal printing is the injective argument [dec]; times are not negative) *)
Definition to_segment_list (dec : Z -> string) (rows : list row) : res seg_list :=
  sl_new (map (fun r => mk_seg (r_file r ++ "-" ++ dec (Qfloor (r_tb r)) ++ "-" ++ dec (Qfloor (r_end r)))%string (r_file r) (r_tb r) (r_end r)) rows) true.

(** ** ext_segment_list.py:557-642 [merge_adjacent_segments] *)

Record eseg := mk_eseg { e_id : string; e_file : string; e_tb : Q; e_te : Q; e_ext : string }.
(** the extended segments: id and name ([None] is NaN, which equals nothing) *)
Definition ext_table := list (string * option string).

(** ext_segment_list.py:561-562 [pd.merge(segments, ext_segments, on='ext_segment_id', how='inner')] *)
Definition ext_join (segs : list eseg) (ext : ext_table) : list (eseg * option string) :=
  flat_map (fun s => map (fun e => (s, snd e)) (filter (fun e => eqb (fst e) (e_ext s)) ext)) segs.
(** ext_segment_list.py:563-566: same file and same name as the previous row *)
Definition same_ext (a b : eseg * option string) : bool :=
  eqb (e_file (fst b)) (e_file (fst a)) && match snd a, snd b with Some x, Some y => eqb y x | _, _ => false end.

Record ext_state := mk_ext { x_count : nat; x_first : nat; x_last : nat; x_ext : list string; x_d : ext_table }.

(** insertion into an OrderedDict *)
Fixpoint dict_set (d : ext_table) (k : string) (v : option string) : ext_table :=
  match d with
  | [] => [(k, v)]
  | (k', v') :: d => if eqb k' k then (k, v) :: d else (k', v') :: dict_set d k v
  end.

(** ext_segment_list.py:574-621: one turn of the loop.  [self.ext_segments.loc[old, 'name']] is the
    name of the first row with that id (ids are unique in the table). *)
Definition ext_turn (segs : list eseg) (ext : ext_table) (joined : list (eseg * option string)) (max : nat) (st : ext_state) (i : nat) : res ext_state :=
  let n := len segs in
  close <- (if Nat.eqb i n then Ok true else
            match nth_error joined (i - 1), nth_error joined i with
            | Some a, Some b => Ok (negb (same_ext a b) || Nat.eqb (x_count st) max)
            | _, _ => Err IndexError
            end) ;;
  if close : bool then
    let range {A} (l : list A) := firstn (S (x_last st) - x_first st) (skipn (x_first st) l) in
    let new := String.concat "@" (range (map e_id segs)) in
    old <- get_item (range (x_ext st)) 0 ;;
    nm <- match find (fun e => eqb (fst e) old) ext with Some e => Ok (snd e) | None => Err KeyError end ;;
    Ok (mk_ext 1 (S (x_last st)) (S (x_last st))
          (fill_at (x_ext st) (seq (x_first st) (S (x_last st) - x_first st)) new) (dict_set (x_d st) new nm))
  else Ok (mk_ext (S (x_count st)) (x_first st) i (x_ext st) (x_d st)).

(** the new [ext_segment_id] column and the new table; [max = 0] means no limit *)
Definition ext_merge (segs : list eseg) (ext : ext_table) (max : nat) : res (list string * ext_table) :=
  let max := match max with O => len segs | _ => max end in
  st <- foldM (ext_turn segs ext (ext_join segs ext) max) (mk_ext 1 0 0 (map e_ext segs) []) (seq 1 (len segs)) ;;
  Ok (x_ext st, x_d st).
