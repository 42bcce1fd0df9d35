(** Model of the evaluation of trial lists: DataReader._squeeze, hyperion/io/data_reader.py:70-95; TrialNdx.parse_eval_set and
    apply_segmentation_to_test, hyperion/utils/trial_ndx.py:209-236 and 305-325; TrialDataReader and TrackingDataReader,
    hyperion/helpers/trial_data_reader.py:28-62, tracking_data_reader.py:27-77; the scripts hyperion/bin/eval-plda-1vs1.py:31-55,
    eval-cos-1vs1.py:29-54, eval-plda-nvs1.py:30-56, scores2lre_format.py:24-59 and eval-score-norm.py:29-118.
    The reader of vectors is an arbitrary function from keys to vectors or errors; the preprocessing and the scoring function are arbitrary
    functions of one row and of two rows. Files are replaced by the objects they hold; logging and timing are dropped. *)
From Coq Require Import ZArith List Bool Arith String Reals.
From Verif Require Import Base Mat Str Trials Utt2Info Segments.
Import ListNotations.
Open Scope list_scope.

Section Eval.
Context {X A : Type}.

(** ** Reading *)

(** DataReader._squeeze on vectors: data_reader.py:70-95. The loop asserts that every non-empty vector has the length of the first one; an empty
    one becomes a row of zeros with permissive and stays a 1-D array otherwise, which np.concatenate rejects. Simplification: when all vectors
    are empty and permissive is false the code returns a 1-D array of size 0; here it is the same ValueError. *)
Definition squeeze (zero : X) (permissive : bool) (data : list (list X)) : res (mat X) :=
  match data with
  | [] => Err IndexError
  | d0 :: _ =>
    let D := len d0 in
    if forallb (fun d => (len d =? 0)%nat || (len d =? D)%nat) data then
      if permissive then Ok (mk_mat D (map (fun d => if (len d =? 0)%nat then repeat zero D else d) data))
      else if existsb (fun d => (len d =? 0)%nat) data then Err ValueError
      else Ok (mk_mat D data)
    else Err AssertionError
  end.

(** reader.read(keys, squeeze=True) *)
Definition read_matrix (zero : X) (fetch : string -> res (list X)) (keys : list string) : res (mat X) :=
  data <- mapM fetch keys ;; squeeze zero false data.

(** ** parse_eval_set *)

Inductive eval_set := EnrollTest | EnrollCoh | CohTest | CohCoh.

(** trial_ndx.py:209-236. Utt2Info has no attribute file_path (nor has None), and None has neither model_set nor seg_set. *)
Definition parse_eval_set (ndx : option ndx) (enroll : u2i) (test : option u2i) (s : eval_set) : res (option Trials.ndx * u2i) :=
  match s with
  | EnrollTest => match ndx with None => Err AttributeError | Some n => e <- u2i_filter_info enroll (n_mod n) true ;; Ok (Some n, e) end
  | EnrollCoh => Err AttributeError
  | CohTest => match ndx with
               | None => Err AttributeError
               | Some n => n' <- ndx_new (map fst (u_rows enroll)) (n_seg n) None ;; Ok (Some n', enroll)
               end
  | CohCoh => Err AttributeError
  end.

(** TrialDataReader.__init__, trial_data_reader.py:28-50: with more than one part TrialNdx.split is called on the class with four arguments,
    one less than it takes *)
Definition reader_new (ndx : option ndx) (enroll : u2i) (test : option u2i) (num_model_parts num_seg_parts : Z) (s : eval_set) : res (option Trials.ndx * u2i) :=
  r <- parse_eval_set ndx enroll test s ;;
  if (1 <? num_model_parts)%Z || (1 <? num_seg_parts)%Z then Err TypeError else Ok r.

(** preproc.predict applied to the rows; every row of the result has the length of the first *)
Definition map_rows {B} (f : list X -> list B) (M : mat X) : mat B :=
  let rows := map f (m_rows M) in mk_mat (match rows with [] => 0 | r :: _ => len r end) rows.

(** TrialDataReader.read, trial_data_reader.py:54-62: vectors of the enrolment keys and of the test segments, names of the models, trials *)
Definition reader_read (zero : X) (fetch : string -> res (list X)) (preproc : option (list X -> list X)) (r : option ndx * u2i)
    : res (mat X * mat X * list string * Trials.ndx) :=
  x_e <- read_matrix zero fetch (map fst (u_rows (snd r))) ;;
  n <- match fst r with Some n => Ok n | None => Err AttributeError end ;;
  x_t <- read_matrix zero fetch (n_seg n) ;;
  let f := match preproc with Some f => map_rows f | None => fun M => M end in
  Ok (f x_e, f x_t, map snd (u_rows (snd r)), n).

(** scores of all pairs of rows: np.dot (and the matrix products in llr_1vs1) reject rows of different sizes *)
Definition all_pairs (score : list X -> list X -> A) (x_e x_t : mat X) : res (mat A) :=
  if (m_cols x_e =? m_cols x_t)%nat then Ok (mk_mat (len (m_rows x_t)) (map (fun e => map (score e) (m_rows x_t)) (m_rows x_e)))
  else Err ValueError.

(** eval-plda-1vs1.py:31-55 and eval-cos-1vs1.py:29-54; TrialScores without a mask has all trials *)
Definition eval_1vs1 (zero : X) (fetch : string -> res (list X)) (preproc : option (list X -> list X)) (score : list X -> list X -> A) (F : sops A)
    (ndx : option ndx) (enroll : u2i) (test : option u2i) (num_model_parts num_seg_parts : Z) (s : eval_set) : res (scores A) :=
  r <- reader_new ndx enroll test num_model_parts num_seg_parts s ;;
  '(x_e, x_t, models, n) <- reader_read zero fetch preproc r ;;
  S <- all_pairs score x_e x_t ;;
  scores_new F models (n_seg n) S (mfull (len models) (len (n_seg n)) true).

(** eval-plda-nvs1.py:30-56: the name plda_type is neither a parameter nor a global *)
Definition eval_Nvs1 (zero : X) (fetch : string -> res (list X)) (preproc : option (list X -> list X)) (F : sops A)
    (ndx : option ndx) (enroll : u2i) (test : option u2i) (num_model_parts num_seg_parts : Z) (s : eval_set) : res (scores A) :=
  r <- reader_new ndx enroll test num_model_parts num_seg_parts s ;;
  _ <- reader_read zero fetch preproc r ;;
  Err NameError.

(** ** Segmentation of the test side *)

(** ext_segment_list.py:264-270: unique ids of the extended segments of a file; a file missing from the index is a KeyError, a selection
    on the column is empty *)
Definition ext_ids (segs : list eseg) (by_file : bool) (file : string) : res (list string) :=
  let rows := filter (fun s => eqb (e_file s) file) segs in
  match rows with
  | [] => if by_file then Err KeyError else Ok []
  | _ => Ok (unique (map e_ext rows))
  end.

(** trial_ndx.py:305-325; np.concatenate of no arrays is a ValueError *)
Definition apply_segmentation (o : ndx) (segs : list eseg) (by_file : bool) : res ndx :=
  ids <- mapM (ext_ids segs by_file) (n_seg o) ;;
  match n_seg o with
  | [] => Err ValueError
  | _ => ndx_new (n_mod o) (concat ids)
           (Some (mk_mat (len (concat ids)) (map (fun row => concat (zip_with (fun b l => repeat b (len l)) row ids)) (m_rows (n_mask o)))))
  end.

(** TrackingDataReader.__init__, _read_all_utts, _read_single_utt and read, tracking_data_reader.py:27-77, for one part. _read_single_utt passes
    the enrolment list as trial list and the trial list as enrolment list to parse_eval_set: neither has the attributes that are used. *)
Definition tracking_read (zero : X) (fetch : string -> res (list X)) (preproc : option (list X -> list X)) (ndx : ndx) (enroll : u2i)
    (segs : list eseg) (by_file : bool) (key : option string) : res (mat X * mat X * list string * Trials.ndx) :=
  r <- reader_new (Some ndx) enroll None 1 1 EnrollTest ;;
  match key with
  | None => ndx_seg <- apply_segmentation ndx segs by_file ;; reader_read zero fetch preproc (Some ndx_seg, snd r)
  | Some k => n <- ndx_filter ndx (n_mod ndx) [k] true ;;
              _ <- apply_segmentation n segs by_file ;;
              Err AttributeError
  end.
End Eval.

(** ** Cosine scoring *)

(** LNorm().predict on one row, transforms/lnorm.py:18-21 (no centring, no whitening) *)
Definition norm_row (x : list R) : R := sqrt (fold_right Rplus 0%R (map (fun v => (v * v)%R) x)).
Definition lnorm_row (x : list R) : list R := map (fun v => (sqrt (INR (len x)) * v / (norm_row x + / 10 ^ 10))%R) x.
(** np.dot(x_e, x_t.T), eval-cos-1vs1.py:29-54 *)
Definition dot_rows (a b : list R) : R := fold_right Rplus 0%R (zip_with Rmult a b).
Definition cos_score (a b : list R) : R := dot_rows (lnorm_row a) (lnorm_row b).
Definition eval_cos (fetch : string -> res (list R)) (preproc : option (list R -> list R)) (F : sops R)
    (ndx : option ndx) (enroll : u2i) (test : option u2i) (num_model_parts num_seg_parts : Z) (s : eval_set) : res (scores R) :=
  eval_1vs1 0%R fetch preproc cos_score F ndx enroll test num_model_parts num_seg_parts s.

(** ** scores2lre_format.py:24-59 *)

Definition tab_str : string := String (Ascii.ascii_of_nat 9) EmptyString.
Section Lre.
Context {A : Type}.
(** os.path.splitext of the test names, when add_ext is given: [splitext] is arbitrary. Without test_list the list exts is undefined. *)
Definition lre_segs (splitext : string -> string * string) (sc : scores A) (test_list : option (list string)) (add_ext : bool)
    : list string * res (list string) :=
  match test_list with
  | None => (s_seg sc, Err UnboundLocalError)
  | Some l => let l := filter (fun x => negb (eqb x "segmentid"%string)) l in
              if add_ext then (map (fun x => fst (splitext x)) l, Ok (map (fun x => snd (splitext x)) l)) else (l, Err UnboundLocalError)
  end.
(** one line of the table: scores2lre_format.py:55-59; scores[-1, i] of no models is an IndexError *)
Definition lre_line (fmt : A -> string) (S : mat A) (names : list string) (i : nat) : res string :=
  name <- get_item names (Z.of_nat i) ;;
  vals <- mapM (fun j => match mget S j i with Some x => Ok (fmt x ++ tab_str)%string | None => Err IndexError end) (seq 0 (len (m_rows S) - 1)) ;;
  last <- match mget S (len (m_rows S) - 1) i with Some x => Ok (fmt x) | None => Err IndexError end ;;
  Ok (name ++ tab_str ++ str_concat vals ++ last ++ nl_str)%string.
(** [low] is -100, [fmt] is '%f' *)
Definition to_lre (F : sops A) (low : A) (fmt : A -> string) (splitext : string -> string * string) (sc : scores A)
    (test_list class_list : option (list string)) (add_ext : bool) : res string :=
  let '(segs, exts) := lre_segs splitext sc test_list add_ext in
  let models := match class_list with None => s_mod sc | Some l => l end in
  n <- ndx_new models segs None ;;
  sc <- set_missing_to_value F sc (ANdx n) low ;;
  names <- (if add_ext then exts <- exts ;; Ok (zip_with (fun s e => (s ++ e)%string) (s_seg sc) exts) else Ok (s_seg sc)) ;;
  last <- get_item (s_mod sc) (-1) ;;
  ls <- mapM (lre_line fmt (s_scr sc) names) (seq 0 (m_cols (s_scr sc))) ;;
  Ok ("segmentid" ++ tab_str ++ str_concat (map (fun m => (m ++ tab_str)%string) (removelast (s_mod sc))) ++ last ++ nl_str ++ str_concat ls)%string.

(** eval-score-norm.py:96-118: the script defines score_norm and calls eval_score_norm, which nothing defines. load_scores (29-52) reads an
    attribute of None before loading either cohort file. *)
Definition score_norm_load (sc : scores A) (enr_coh coh_test coh_coh : option (scores A)) : res (scores A * option (scores A) * option (scores A) * option (scores A)) :=
  match enr_coh, coh_test, coh_coh with
  | Some _, _, _ => Err AttributeError
  | None, Some _, _ => Err AttributeError
  | None, None, Some _ => Err AssertionError
  | None, None, None => Ok (sc, None, None, None)
  end.
Definition score_norm_script (sc : scores A) (enr_coh coh_test coh_coh : option (scores A)) : res unit := Err NameError.
End Lre.
