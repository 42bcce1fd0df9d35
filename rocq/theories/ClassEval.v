(** Model of the evaluation of classifiers: HypDataReader.read, hyperion/io/hyp_data_reader.py:34-56; ClassifTrialDataReader and VectorReader,
    hyperion/helpers/classif_trial_data_reader.py:28-66, vector_reader.py:26-50; the scripts hyperion/bin/eval-linear-gbe.py:31-60 (the same lines of
    eval-logistic-regression.py, eval-linear-svmc.py, eval-linear-gbe-up.py and eval-q-scoring-homo-gbe.py differ in the call of predict only),
    vectors2scores.py:22-31 and eval-2class-performance.py:27-42; the dictionary of classes of vector_class_reader.py:38-41.
    A data file is a function from names to vectors; the transform acts on each row; predict is an arbitrary function of the matrix; score files are
    replaced by the objects they hold. Logging and timing are dropped. *)
From Coq Require Import ZArith List Bool Arith String.
From Verif Require Import Base Mat Str Trials TrialEval ListUtils Metrics ClassReader.
Import ListNotations.
Open Scope list_scope.

Section Classify.
Context {X A : Type}.
Variable F : sops A.
(** [line.rstrip().split()[0] for line in f] *)
Definition first_words (text : string) : res (list string) := mapM (fun l => get_item (py_split (rstrip l)) 0) (py_lines text).
(** HypDataReader.read with return_tensor on vectors: X[i] = X_i broadcasts a vector of one number *)
Definition tensor_read (fetch : string -> option (list X)) (keys : list string) (field : string) : res (mat X) :=
  match keys with
  | [] => Err IndexError
  | k0 :: _ =>
    d0 <- match fetch (k0 ++ field)%string with Some d => Ok d | None => Err KeyError end ;;
    rows <- mapM (fun k => match fetch (k ++ field)%string with
                           | None => Err AssertionError
                           | Some d => if (len d =? len d0)%nat then Ok d else match d with [v] => Ok (repeat v (len d0)) | _ => Err ValueError end
                           end) keys ;;
    Ok (mk_mat (len d0) rows)
  end.
(** ClassifTrialDataReader.__init__: with several parts split is called on the class, with one argument less than it needs *)
Definition classif_new (classes tests : string) (num_seg_parts : Z) : res ndx :=
  mods <- first_words classes ;; segs <- first_words tests ;; n <- ndx_new mods segs None ;;
  if (1 <? num_seg_parts)%Z then Err TypeError else Ok n.
Definition classif_read (fetch : string -> option (list X)) (preproc : option (list X -> list X)) (field : string) (n : ndx) : res (mat X) :=
  x <- tensor_read fetch (n_seg n) field ;; Ok (match preproc with Some f => map_rows f x | None => x end).
(** scores.T *)
Definition transpose (d : A) (S : mat A) : mat A := mk_mat (len (m_rows S)) (map (fun j => map (fun r => nth j r d) (m_rows S)) (seq 0 (m_cols S))).
(** the scripts: the scores, and the vectors of scores for vector_score_file *)
Definition eval_classifier (fetch : string -> option (list X)) (preproc : option (list X -> list X)) (predict : mat X -> res (mat A))
    (classes tests field : string) (num_seg_parts : Z) : res (scores A * list (string * list A)) :=
  n <- classif_new classes tests num_seg_parts ;; x <- classif_read fetch preproc field n ;; S <- predict x ;;
  s <- scores_new F (n_mod n) (n_seg n) (transpose (s_zero F) S) (mfull (len (n_mod n)) (len (n_seg n)) true) ;;
  Ok (s, combine (n_seg n) (m_rows S)).
(** vectors2scores.py: the file of vectors is read to its end *)
Definition convert (vectors : list (string * list A)) (classes : string) : res (scores A) :=
  S <- squeeze (s_zero F) false (map snd vectors) ;; mods <- first_words classes ;;
  scores_new F mods (map fst vectors) (transpose (s_zero F) S) (mfull (len mods) (len vectors) true).
End Classify.

(** vector_class_reader.py:41: {v[0]: int(v[1]) for each line}, the later line wins *)
Definition class2int (text : string) : res (list (string * Z)) :=
  mapM (fun l => let f := py_split (rstrip l) in k <- get_item f 0 ;; v <- get_item f 1 ;; i <- match py_int v with Some i => Ok i | None => Err ValueError end ;; Ok (k, i)) (py_lines text).

(** VectorReader.filter_args, vector_reader.py:42-50: valid_args is a string, not a tuple, so that its letters are the accepted names *)
Definition letters (s : string) : list string := map (fun c => String c EmptyString) (list_ascii_of_string s).
Definition vector_filter_args (prefix : option string) (kwargs : list (string * string)) : list (string * string) :=
  let p := match prefix with None => EmptyString | Some q => (q ++ "_")%string end in
  concat (map (fun k => match find (fun a => eqb (fst a) (p ++ k)%string) kwargs with Some a => [(k, snd a)] | None => [] end) (letters "vlist_sep")).

(** eval-2class-performance.py: os.makedirs of the directory of the output, which fails when that is the empty string; then the error rate and the numbers
    of trials, which are what is printed *)
Section TwoClass.
Context {A : Type} `{Ord A}.
Variable F : sops A.
Fixpoint has_slash (s : string) : bool := match s with EmptyString => false | String c s => Ascii.eqb c "/"%char || has_slash s end.
Definition eval_2class (s : scores A) (k : key) (output_path : string) : res (QArith_base.Q * nat * nat) :=
  if has_slash output_path then '(tar, non) <- get_tar_non F s k ;; e <- compute_eer tar non ;; Ok (e, len tar, len non) else Err IOErr.
End TwoClass.
