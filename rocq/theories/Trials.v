(** Model of hyperion/utils/trial_ndx.py, trial_key.py and trial_scores.py.

    Names are strings.  [np.argsort] is an oracle (index lists given as arguments, constrained by
    [is_argsort] in theorems).  Logging calls are dropped.  Arrays of names are lists
    ([list2ndarray] is the identity here). *)
From Verif Require Export Mat Str.
Open Scope list_scope.
Open Scope Z_scope.

(** [len(np.unique(a)) == len(a)] *)
Definition distinct (a : list string) : bool := (len (unique a) =? len a)%nat.

(** ** TrialNdx *)

Record ndx := mk_ndx { n_mod : list string; n_seg : list string; n_mask : mat bool }.

(** trial_ndx.py:28-33 (constructor) and 288-301 [validate] *)
Definition ndx_new (mods segs : list string) (mask : option (mat bool)) : res ndx :=
  _ <- assert (distinct mods) ;;
  _ <- assert (distinct segs) ;;
  match mask with
  | None => Ok (mk_ndx mods segs (mfull (len mods) (len segs) true))
  | Some M => _ <- assert (shape_is M (len mods) (len segs)) ;; Ok (mk_ndx mods segs M)
  end.

(** trial_ndx.py:50-54 [sort]; [mi], [si] are the results of np.argsort *)
Definition ndx_sort (mi si : list nat) (o : ndx) : res ndx :=
  '(mods, m_idx) <- sort_index mi (n_mod o) false ;;
  '(segs, s_idx) <- sort_index si (n_seg o) false ;;
  M <- msel (n_mask o) m_idx s_idx ;;
  Ok (mk_ndx mods segs M).

(** trial_ndx.py:183-189: one operand of [merge] re-indexed in the new name lists
    (also 191-198, trial_key.py:270-279 and 291-300, trial_scores.py:200-209 and 213-222) *)
Definition embed {A} (zero : A) (new_mods new_segs mods segs : list string) (M : mat A) : res (mat A) :=
  let '(_, mi_a, mi_b) := intersect new_mods mods in
  let '(_, si_a, si_b) := intersect new_segs segs in
  V <- msel M mi_b si_b ;;
  mput (mfull (len new_mods) (len new_segs) zero) mi_a si_a V.

(** trial_ndx.py:179-202: loop body of [merge] *)
Definition ndx_merge2 (a b : ndx) : res ndx :=
  let new_mods := union1d (n_mod a) (n_mod b) in
  let new_segs := union1d (n_seg a) (n_seg b) in
  m1 <- embed false new_mods new_segs (n_mod a) (n_seg a) (n_mask a) ;;
  m2 <- embed false new_mods new_segs (n_mod b) (n_seg b) (n_mask b) ;;
  M <- mmap2 orb m1 m2 ;;
  Ok (mk_ndx new_mods new_segs M).

Fixpoint foldM {A B} (f : A -> B -> res A) (a : A) (l : list B) : res A :=
  match l with [] => Ok a | b :: l' => a' <- f a b ;; foldM f a' l' end.

(** trial_ndx.py:166-204 [merge]; [ndx_list[0]] of an empty list raises IndexError *)
Definition ndx_merge (l : list ndx) : res ndx :=
  match l with
  | [] => Err IndexError
  | a :: l' => r <- foldM ndx_merge2 a l' ;; ndx_new (n_mod r) (n_seg r) (Some (n_mask r))
  end.

(** trial_ndx.py:239-262 [filter] *)
Definition ndx_filter (o : ndx) (mods segs : list string) (keep : bool) : res ndx :=
  let mods := if keep then mods else setdiff (n_mod o) mods in
  let segs := if keep then segs else setdiff (n_seg o) segs in
  let '(f, mod_idx) := ismember mods (n_mod o) in
  _ <- assert (forallb (fun b => b) f) ;;
  let '(f, seg_idx) := ismember segs (n_seg o) in
  _ <- assert (forallb (fun b => b) f) ;;
  mods' <- take (n_mod o) mod_idx ;;
  _ <- take (n_seg o) seg_idx ;;
  M <- msel (n_mask o) mod_idx seg_idx ;;
  ndx_new mods' segs (Some M).

(** trial_ndx.py:266-284 [split] *)
Definition ndx_split (o : ndx) (model_idx num_model_parts seg_idx num_seg_parts : Z) : res ndx :=
  '(mods, mi) <- split_list (n_mod o) model_idx num_model_parts ;;
  '(segs, si) <- split_list (n_seg o) seg_idx num_seg_parts ;;
  M <- msel (n_mask o) mi si ;;
  ndx_new mods segs (Some M).

(** trial_ndx.py:94-103 [save_txt]: '%s %s\n' for each trial, segment by segment *)
Definition ndx_save_txt (o : ndx) : res string :=
  ls <- mapM (fun p => m <- get_item (n_mod o) (Z.of_nat (fst p)) ;;
                       s <- get_item (n_seg o) (Z.of_nat (snd p)) ;;
                       Ok (m ++ " " ++ s ++ nl_str)%string) (nonzeroT (n_mask o)) ;;
  Ok (str_concat ls).

(** [str.split()]: the maximal runs of non-blank characters *)
Fixpoint fields_aux (s : string) (cur : string) : list string :=
  match s with
  | EmptyString => match cur with EmptyString => [] | _ => [cur] end
  | String c s' =>
      if is_space c then match cur with EmptyString => fields_aux s' EmptyString
                                       | _ => cur :: fields_aux s' EmptyString end
      else fields_aux s' (cur ++ String c EmptyString)%string
  end.
Definition py_split (s : string) : list string := fields_aux s EmptyString.

(** trial_ndx.py:158-160, trial_key.py:223-233, trial_scores.py:171-175: setting one cell per line *)
Definition set_cells {A} (M : mat A) (cells : list (nat * nat * A)) : res (mat A) :=
  foldM (fun M c => mset1 M (fst (fst c)) (snd (fst c)) (snd c)) M cells.

(** trial_ndx.py:141-161 [load_txt] *)
Definition ndx_load_txt (text : string) : res ndx :=
  let fields := map py_split (py_lines text) in
  models <- mapM (fun f => get_item f 0) fields ;;
  segments <- mapM (fun f => get_item f 1) fields ;;
  let mods := unique models in
  let segs := unique segments in
  M <- set_cells (mfull (len mods) (len segs) false)
                 (map (fun p => (p, true)) (combine (inverse models) (inverse segments))) ;;
  ndx_new mods segs (Some M).

(** ** TrialKey *)

Record key := mk_key { k_mod : list string; k_seg : list string; k_tar : mat bool; k_non : mat bool;
  k_mcond : option (mat bool);        (* num_conditions x num_models *)
  k_scond : option (mat bool);        (* num_conditions x num_segments *)
  k_tcond : option (list (mat bool)); (* one num_models x num_segments matrix per condition *)
  k_mname : option (list string); k_sname : option (list string); k_tname : option (list string) }.

Definition opt_all {A} (p : A -> bool) (o : option A) : bool := match o with None => true | Some a => p a end.

(** trial_key.py:36-50 (constructor) and 424-454 [validate] *)
Definition key_new (mods segs : list string) (tn : option (mat bool * mat bool))
    (mc sc : option (mat bool)) (tc : option (list (mat bool))) (mn sn tcn : option (list string)) : res key :=
  let r := len mods in
  let c := len segs in
  _ <- assert (distinct mods) ;;
  _ <- assert (distinct segs) ;;
  '(tar, non) <- match tn with
     | None => Ok (mfull r c false, mfull r c false)
     | Some (t, n) => _ <- assert (shape_is t r c) ;; _ <- assert (shape_is n r c) ;; Ok (t, n)
     end ;;
  _ <- assert (opt_all (fun M => (m_cols M =? r)%nat) mc) ;;
  _ <- assert (opt_all (fun M => (m_cols M =? c)%nat) sc) ;;
  _ <- assert (opt_all (forallb (fun M => shape_is M r c)) tc) ;;
  Ok (mk_key mods segs tar non mc sc tc mn sn tcn).

Definition opt_res {A B} (f : A -> res B) (o : option A) : res (option B) :=
  match o with None => Ok None | Some a => b <- f a ;; Ok (Some b) end.

(** [a[:, np.ix_(mi, si)]] as the code writes it: numpy is handed a tuple of two index arrays of
    different shapes inside the index tuple and raises.  Simplification: the exception class is
    IndexError; for a 1 x 1 key numpy instead builds an array of more dimensions, which [validate]
    then rejects (filter, split) -- not distinguished here. *)
Definition tcond_ix (tc : option (list (mat bool))) : res (option (list (mat bool))) :=
  match tc with None => Ok None | Some _ => Err IndexError end.

(** trial_key.py:68-80 [sort]: the conditions are indexed on their first axis *)
Definition key_sort (mi si : list nat) (o : key) : res key :=
  '(mods, m_idx) <- sort_index mi (k_mod o) false ;;
  '(segs, s_idx) <- sort_index si (k_seg o) false ;;
  tar <- msel (k_tar o) m_idx s_idx ;;
  non <- msel (k_non o) m_idx s_idx ;;
  mc <- opt_res (fun M => rows <- take (m_rows M) m_idx ;; Ok (mk_mat (m_cols M) rows)) (k_mcond o) ;;
  sc <- opt_res (fun M => rows <- take (m_rows M) s_idx ;; Ok (mk_mat (m_cols M) rows)) (k_scond o) ;;
  tc <- tcond_ix (k_tcond o) ;;
  Ok (mk_key mods segs tar non mc sc tc (k_mname o) (k_sname o) (k_tname o)).

(** trial_key.py:281-285: [z = np.zeros((n, width)); z[:, ia] = cond[:, ib]] *)
Definition embed_cols (n width : nat) (ia ib : list Z) (C : mat bool) : res (mat bool) :=
  V <- mcols C ib ;;
  rows <- mapM (fun p => set_items (fst p) ia (snd p)) (combine (repeat (repeat false width) n) (m_rows V)) ;;
  Ok (mk_mat width rows).

(** trial_key.py:264-320: loop body of [merge].  The accumulated object carries the conditions;
    [nm], [ns] are num_model_cond and num_seg_cond of the first key (l.257-262).
    Segment conditions are re-indexed with the model indices (l.284-285, 305-306) and trial
    conditions are allocated with [np.zeros((num_trial_cond, shape))], a TypeError (l.287).
    [key_i.model_cond[:, ..]] with model_cond None is a TypeError. *)
Definition need {A} (o : option A) : res A := match o with None => Err TypeError | Some a => Ok a end.

Definition key_merge2 (nm ns : nat) (a b : key) : res key :=
  let new_mods := union1d (k_mod a) (k_mod b) in
  let new_segs := union1d (k_seg a) (k_seg b) in
  tar_1 <- embed false new_mods new_segs (k_mod a) (k_seg a) (k_tar a) ;;
  non_1 <- embed false new_mods new_segs (k_mod a) (k_seg a) (k_non a) ;;
  let '(_, mi_a, mi_b) := intersect new_mods (k_mod a) in
  mc1 <- opt_res (fun C => embed_cols nm (len new_mods) mi_a mi_b C) (k_mcond a) ;;
  sc1 <- opt_res (fun C => embed_cols ns (len new_mods) mi_a mi_b C) (k_scond a) ;;
  _ <- match k_tcond a with None => Ok tt | Some _ => Err TypeError end ;;
  tar_2 <- embed false new_mods new_segs (k_mod b) (k_seg b) (k_tar b) ;;
  non_2 <- embed false new_mods new_segs (k_mod b) (k_seg b) (k_non b) ;;
  let '(_, mj_a, mj_b) := intersect new_mods (k_mod b) in
  mc <- opt_res (fun C1 => C <- need (k_mcond b) ;; C2 <- embed_cols nm (len new_mods) mj_a mj_b C ;; mmap2 orb C1 C2) mc1 ;;
  sc <- opt_res (fun C1 => C <- need (k_scond b) ;; C2 <- embed_cols ns (len new_mods) mj_a mj_b C ;; mmap2 orb C1 C2) sc1 ;;
  tar <- mmap2 orb tar_1 tar_2 ;;
  non <- mmap2 orb non_1 non_2 ;;
  Ok (mk_key new_mods new_segs tar non mc sc None (k_mname a) (k_sname a) (k_tname a)).

Definition rows_of (o : option (mat bool)) : nat := match o with None => 0 | Some C => len (m_rows C) end.

(** trial_key.py:239-326 [merge] *)
Definition key_merge (l : list key) : res key :=
  match l with
  | [] => Err IndexError
  | a :: l' =>
      r <- foldM (key_merge2 (rows_of (k_mcond a)) (rows_of (k_scond a))) a l' ;;
      key_new (k_mod r) (k_seg r) (Some (k_tar r, k_non r)) (k_mcond r) (k_scond r) (k_tcond r)
              (k_mname a) (k_sname a) (k_tname a)
  end.

(** trial_key.py:330-372 [filter] *)
Definition key_filter (o : key) (mods segs : list string) (keep : bool) : res key :=
  let mods := if keep then mods else setdiff (k_mod o) mods in
  let segs := if keep then segs else setdiff (k_seg o) segs in
  let '(f, mod_idx) := ismember mods (k_mod o) in
  _ <- assert (forallb (fun b => b) f) ;;
  let '(f, seg_idx) := ismember segs (k_seg o) in
  _ <- assert (forallb (fun b => b) f) ;;
  mods' <- take (k_mod o) mod_idx ;;
  _ <- take (k_seg o) seg_idx ;;
  tar <- msel (k_tar o) mod_idx seg_idx ;;
  non <- msel (k_non o) mod_idx seg_idx ;;
  mc <- opt_res (fun C => mcols C mod_idx) (k_mcond o) ;;
  sc <- opt_res (fun C => mcols C seg_idx) (k_scond o) ;;
  tc <- tcond_ix (k_tcond o) ;;
  key_new mods' segs (Some (tar, non)) mc sc tc (k_mname o) (k_sname o) (k_tname o).

(** trial_key.py:376-410 [split] *)
Definition key_split (o : key) (model_idx num_model_parts seg_idx num_seg_parts : Z) : res key :=
  '(mods, mi) <- split_list (k_mod o) model_idx num_model_parts ;;
  '(segs, si) <- split_list (k_seg o) seg_idx num_seg_parts ;;
  tar <- msel (k_tar o) mi si ;;
  non <- msel (k_non o) mi si ;;
  mc <- opt_res (fun C => mcols C mi) (k_mcond o) ;;
  sc <- opt_res (fun C => mcols C si) (k_scond o) ;;
  tc <- tcond_ix (k_tcond o) ;;
  key_new mods segs (Some (tar, non)) mc sc tc (k_mname o) (k_sname o) (k_tname o).

(** trial_key.py:414-421 [to_ndx] *)
Definition key_to_ndx (o : key) : res ndx :=
  M <- mmap2 orb (k_tar o) (k_non o) ;; ndx_new (k_mod o) (k_seg o) (Some M).

(** trial_key.py:132-146 [save_txt]: the target lines, then the non-target lines *)
Definition key_lines (o : key) (M : mat bool) (label : string) : res (list string) :=
  mapM (fun p => m <- get_item (k_mod o) (Z.of_nat (fst p)) ;;
                 s <- get_item (k_seg o) (Z.of_nat (snd p)) ;;
                 Ok (m ++ " " ++ s ++ " " ++ label ++ nl_str)%string) (nonzeroT M).
Definition key_save_txt (o : key) : res string :=
  l1 <- key_lines o (k_tar o) "target" ;;
  l2 <- key_lines o (k_non o) "nontarget" ;;
  Ok (str_concat (l1 ++ l2)).

(** trial_key.py:209-234 [load_txt] *)
Definition key_load_txt (text : string) : res key :=
  let fields := map py_split (py_lines text) in
  models <- mapM (fun f => get_item f 0) fields ;;
  segments <- mapM (fun f => get_item f 1) fields ;;
  is_tar <- mapM (fun f => w <- get_item f 2 ;; Ok (eqb w "target"%string)) fields ;;
  let mods := unique models in
  let segs := unique segments in
  let items := combine (combine (inverse models) (inverse segments)) is_tar in
  let z := mfull (len mods) (len segs) false in
  tar <- set_cells z (map (fun c => (fst c, true)) (filter snd items)) ;;
  non <- set_cells z (map (fun c => (fst c, true)) (filter (fun c => negb (snd c)) items)) ;;
  key_new mods segs (Some (tar, non)) None None None None None None.

(** The datasets of an HDF5 key file.  Names are stored as byte strings; simplification: encoding
    and decoding are the identity (non-ASCII names make [astype('S')] raise, and trailing NUL
    characters would be lost).  Conditions are stored as uint8 0/1 and read back as bool: identity. *)
Record key_h5 := mk_key_h5 { h_rows : list string; h_columns : list string; h_trial_mask : mat Z;
  h_mcond : option (mat bool); h_scond : option (mat bool); h_tcond : option (list (mat bool));
  h_mname : option (list string); h_sname : option (list string); h_tname : option (list string) }.

Definition b2z (b : bool) : Z := if b then 1 else 0.

(** trial_key.py:97-129 [save_h5]: trial_mask = int8(tar) - int8(non) *)
Definition key_save_h5 (o : key) : res key_h5 :=
  M <- mmap2 Z.sub (mmap b2z (k_tar o)) (mmap b2z (k_non o)) ;;
  Ok (mk_key_h5 (k_mod o) (k_seg o) M (k_mcond o) (k_scond o) (k_tcond o) (k_mname o) (k_sname o) (k_tname o)).

(** trial_key.py:167-205 [load_h5] *)
Definition key_load_h5 (f : key_h5) : res key :=
  key_new (h_rows f) (h_columns f)
    (Some (mmap (fun z => 0 <? z) (h_trial_mask f), mmap (fun z => z <? 0) (h_trial_mask f)))
    (h_mcond f) (h_scond f) (h_tcond f) (h_mname f) (h_sname f) (h_tname f).

(** ** TrialScores *)

(** What the code needs from floating point scores: zero, addition, [np.isfinite]. *)
Record sops (A : Type) := mk_sops { s_zero : A; s_add : A -> A -> A; s_fin : A -> bool }.
Arguments mk_sops {A}. Arguments s_zero {A}. Arguments s_add {A}. Arguments s_fin {A}.

Record scores (A : Type) := mk_scores { s_mod : list string; s_seg : list string; s_scr : mat A; s_mask : mat bool }.
Arguments mk_scores {A}. Arguments s_mod {A}. Arguments s_seg {A}. Arguments s_scr {A}. Arguments s_mask {A}.

(** trial_scores.py:34-40 (constructor) and 305-325 [validate]; both matrices given (with
    scores=None the code refers to undefined names, l.314) *)
Definition scores_new {A} (F : sops A) (mods segs : list string) (S : mat A) (M : mat bool) : res (scores A) :=
  _ <- assert (distinct mods) ;;
  _ <- assert (distinct segs) ;;
  _ <- assert (shape_is S (len mods) (len segs)) ;;
  _ <- assert (mall (mmap (s_fin F) S)) ;;
  _ <- assert (shape_is M (len mods) (len segs)) ;;
  Ok (mk_scores mods segs S M).

(** trial_scores.py:59-65 [sort] *)
Definition scores_sort {A} (mi si : list nat) (o : scores A) : res (scores A) :=
  '(mods, m_idx) <- sort_index mi (s_mod o) false ;;
  '(segs, s_idx) <- sort_index si (s_seg o) false ;;
  S <- msel (s_scr o) m_idx s_idx ;;
  M <- msel (s_mask o) m_idx s_idx ;;
  Ok (mk_scores mods segs S M).

(** trial_scores.py:194-228: loop body of [merge] *)
Definition scores_merge2 {A} (F : sops A) (a b : scores A) : res (scores A) :=
  let new_mods := union1d (s_mod a) (s_mod b) in
  let new_segs := union1d (s_seg a) (s_seg b) in
  scores_1 <- embed (s_zero F) new_mods new_segs (s_mod a) (s_seg a) (s_scr a) ;;
  mask_1 <- embed false new_mods new_segs (s_mod a) (s_seg a) (s_mask a) ;;
  scores_2 <- embed (s_zero F) new_mods new_segs (s_mod b) (s_seg b) (s_scr b) ;;
  mask_2 <- embed false new_mods new_segs (s_mod b) (s_seg b) (s_mask b) ;;
  S <- mmap2 (s_add F) scores_1 scores_2 ;;
  both <- mmap2 andb mask_1 mask_2 ;;
  _ <- assert (negb (many both)) ;;
  M <- mmap2 orb mask_1 mask_2 ;;
  Ok (mk_scores new_mods new_segs S M).

(** trial_scores.py:180-230 [merge] *)
Definition scores_merge {A} (F : sops A) (l : list (scores A)) : res (scores A) :=
  match l with
  | [] => Err IndexError
  | a :: l' => r <- foldM (scores_merge2 F) a l' ;; scores_new F (s_mod r) (s_seg r) (s_scr r) (s_mask r)
  end.

(** trial_scores.py:234-276 [filter]; l.250 complements the segments against the models *)
Definition scores_filter {A} (F : sops A) (o : scores A) (mods segs : list string) (keep raise_missing : bool)
  : res (scores A) :=
  let mods := if keep then mods else setdiff (s_mod o) mods in
  let segs := if keep then segs else setdiff (s_mod o) segs in
  let '(f_mod, mod_idx) := ismember mods (s_mod o) in
  let '(f_seg, seg_idx) := ismember segs (s_seg o) in
  if forallb (fun b => b) f_mod && forallb (fun b => b) f_seg then
    mods' <- take (s_mod o) mod_idx ;;
    _ <- take (s_seg o) seg_idx ;;
    S <- msel (s_scr o) mod_idx seg_idx ;;
    M <- msel (s_mask o) mod_idx seg_idx ;;
    scores_new F mods' segs S M
  else if raise_missing then Err BareException
  else
    let mi := map Z.of_nat (nonzero f_mod) in
    let si := map Z.of_nat (nonzero f_seg) in
    mi2 <- Base.mask f_mod mod_idx ;;
    si2 <- Base.mask f_seg seg_idx ;;
    S2 <- msel (s_scr o) mi2 si2 ;;
    S <- mput (mfull (len mods) (len segs) (s_zero F)) mi si S2 ;;
    M2 <- msel (s_mask o) mi2 si2 ;;
    M <- mput (mfull (len mods) (len segs) false) mi si M2 ;;
    scores_new F mods segs S M.

(** trial_scores.py:280-301 [split] *)
Definition scores_split {A} (F : sops A) (o : scores A) (model_idx num_model_parts seg_idx num_seg_parts : Z)
  : res (scores A) :=
  '(mods, mi) <- split_list (s_mod o) model_idx num_model_parts ;;
  '(segs, si) <- split_list (s_seg o) seg_idx num_seg_parts ;;
  S <- msel (s_scr o) mi si ;;
  M <- msel (s_mask o) mi si ;;
  scores_new F mods segs S M.

(** a TrialNdx or a TrialKey argument, with its mask (trial_scores.py:341-344, 391-394) *)
Inductive ndx_or_key := ANdx (n : ndx) | AKey (k : key).
Definition arg_mod (a : ndx_or_key) := match a with ANdx n => n_mod n | AKey k => k_mod k end.
Definition arg_seg (a : ndx_or_key) := match a with ANdx n => n_seg n | AKey k => k_seg k end.
Definition arg_mask (a : ndx_or_key) : res (mat bool) :=
  match a with ANdx n => Ok (n_mask n) | AKey k => mmap2 orb (k_tar k) (k_non k) end.

(** trial_scores.py:329-357 [align_with_ndx] *)
Definition scores_align {A} (F : sops A) (o : scores A) (a : ndx_or_key) (raise_missing : bool) : res (scores A) :=
  scr <- scores_filter F o (arg_mod a) (arg_seg a) true raise_missing ;;
  mask <- arg_mask a ;;
  M <- mmap2 andb mask (s_mask scr) ;;
  missing <- mmap2 andb mask (mmap negb M) ;;
  if many missing && raise_missing then Err BareException
  else Ok (mk_scores (s_mod scr) (s_seg scr) (s_scr scr) M).

(** trial_scores.py:360-375 [get_tar_non] *)
Definition get_tar_non {A} (F : sops A) (o : scores A) (k : key) : res (list A * list A) :=
  scr <- scores_align F o (AKey k) true ;;
  tm <- mmap2 andb (s_mask scr) (k_tar k) ;;
  tar <- msel_mask (s_scr scr) tm ;;
  nm <- mmap2 andb (s_mask scr) (k_non k) ;;
  non <- msel_mask (s_scr scr) nm ;;
  Ok (tar, non).

(** trial_scores.py:379-398 [set_missing_to_value] *)
Definition set_missing_to_value {A} (F : sops A) (o : scores A) (a : ndx_or_key) (val : A) : res (scores A) :=
  scr <- scores_align F o a false ;;
  mask <- arg_mask a ;;
  mask <- mmap2 andb (mmap negb (s_mask scr)) mask ;;
  S <- mfill_mask (s_scr scr) mask val ;;
  M <- mfill_mask (s_mask scr) mask true ;;
  Ok (mk_scores (s_mod scr) (s_seg scr) S M).

(** trial_scores.py:402-409 [transform]; [f] maps the vector of valid scores to a vector *)
Definition scores_transform {A} (f : list A -> list A) (o : scores A) : res (scores A) :=
  v <- msel_mask (s_scr o) (s_mask o) ;;
  S <- mput_mask (s_scr o) (s_mask o) (f v) ;;
  Ok (mk_scores (s_mod o) (s_seg o) S (s_mask o)).

(** trial_scores.py:99-110 [save_txt]; [fmt] is '%f' *)
Definition scores_save_txt {A} (fmt : A -> string) (o : scores A) : res string :=
  ls <- mapM (fun p => m <- get_item (s_mod o) (Z.of_nat (fst p)) ;;
                       s <- get_item (s_seg o) (Z.of_nat (snd p)) ;;
                       x <- match mget (s_scr o) (fst p) (snd p) with Some x => Ok x | None => Err IndexError end ;;
                       Ok (m ++ " " ++ s ++ " " ++ fmt x ++ nl_str)%string) (nonzeroT (s_mask o)) ;;
  Ok (str_concat ls).

(** trial_scores.py:151-176 [load_txt]; [parse] is the conversion of a string to a float *)
Definition scores_load_txt {A} (F : sops A) (parse : string -> res A) (text : string) : res (scores A) :=
  let fields := map py_split (py_lines text) in
  models <- mapM (fun f => get_item f 0) fields ;;
  segments <- mapM (fun f => get_item f 1) fields ;;
  words <- mapM (fun f => get_item f 2) fields ;;
  let mods := unique models in
  let segs := unique segments in
  vals <- mapM parse words ;;
  let pos := combine (inverse models) (inverse segments) in
  M <- set_cells (mfull (len mods) (len segs) false) (map (fun p => (p, true)) pos) ;;
  S <- set_cells (mfull (len mods) (len segs) (s_zero F)) (combine pos vals) ;;
  scores_new F mods segs S M.
