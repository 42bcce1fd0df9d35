(** Model of hyperion/classifiers/linear_svmc.py (LinearSVMC) in real arithmetic. The optimiser of scikit-learn is a parameter: from the data and the
    sample weights to the coefficient rows (coef_: one row for two classes, one per class otherwise) and the intercepts (intercept_). As scikit-learn
    documents, the scaling of the intercept is already part of intercept_, and the decision function of a sample is coef_ x + intercept_.
    x is a list of rows; only one of A, b given to the constructor is not modelled. *)
From Coq Require Import ZArith List Bool Reals.
From Verif Require Import Base SeqGen MathFns Logit.
Import ListNotations.
Open Scope list_scope. Open Scope R_scope.

Record scall := mk_scall { sc_scale : R; sc_bias : bool; sc_balanced : bool; sc_x : list (list R); sc_ids : list Z; sc_w : option (list R) }.
Definition svm_solver := scall -> res (list (list R) * list R).
Record svm := mk_svm { s_bias : bool; s_scale : R; s_balance : bool; s_fit : option (list (list R) * list R) }.
(** lines 22-54 with class_weight=None: A is given by its columns (the rows of coef_) *)
Definition svm_make (Ab : option (list (list R) * list R)) (use_bias : bool) (scale : R) (balance : bool) : svm := mk_svm use_bias scale balance Ab.
(** lines 92-93 *)
Definition svm_fit (sk : svm_solver) (m : svm) (x : list (list R)) (ids : list Z) (sw : option (list R)) : res svm :=
  ci <- sk (mk_scall (s_scale m) (s_bias m) (s_balance m) x ids sw) ;; Ok (mk_svm (s_bias m) (s_scale m) (s_balance m) (Some ci)).
(** lines 57-63: the properties A (by columns) and b *)
Definition svm_A (m : svm) : res (list (list R)) := match s_fit m with None => Err AttributeError | Some (coef, _) => Ok coef end.
Definition svm_b (m : svm) : res (list R) := match s_fit m with None => Err AttributeError | Some (_, int) => Ok (map (fun v => v * s_scale m) int) end.
(** lines 75-88; np.log of a softmax is the log of positive numbers *)
Inductive svm_eval := SLogit | SBinLogPost | SBinPost | SCatPost | SCatLogPost.
Definition svm_predict (m : svm) (e : svm_eval) (x : list (list R)) : res (list (list R)) :=
  A <- svm_A m ;; b <- svm_b m ;;
  mapM (fun r =>
    d <- mapM (fun a => dotc a r) A ;; s <- badd d b ;;
    match e with
    | SLogit => Ok s
    | SBinLogPost => Ok (map (fun v => ln (1 + exp (- v))) s)
    | SBinPost => Ok (map (fun v => 1 / (1 + exp (- v))) s)
    | SCatPost => softmax s
    | SCatLogPost => p <- softmax s ;; Ok (map ln p)
    end) x.
(** lines 66-71, 95-106: the file has A, b, use_bias, bias_scaling and balance_class_weight, which load_params hands to the constructor (the rounding of
    the 32-bit numbers of the file is not modelled) *)
Definition svm_reload (m : svm) : res svm :=
  A <- svm_A m ;; b <- svm_b m ;; Ok (svm_make (Some (A, b)) (s_bias m) (s_scale m) (s_balance m)).
Fixpoint svm_reloads (n : nat) (m : svm) : res svm := match n with O => Ok m | S n => m <- svm_reload m ;; svm_reloads n m end.
