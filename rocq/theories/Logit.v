(** Model of the logistic regression wrappers: hyperion/classifiers/logistic_regression.py and binary_logistic_regression.py, in real
    arithmetic. The optimiser of scikit-learn is a parameter: it takes the regularisation constant, the flags, the data and the sample
    weights, and returns the coefficient rows and the intercepts (one row for two classes, one row per class otherwise) or an exception.
    Priors are taken positive and, for the log odds, below 1 (np.log gives infinities otherwise). x is a list of rows. *)
From Coq Require Import ZArith List Bool Reals.
From Verif Require Import Base SeqGen MathFns.
Import ListNotations.
Open Scope list_scope. Open Scope R_scope.

(** the priors argument: nothing, a list or array, or a dictionary *)
Inductive priors := PNone | PList (l : list R) | PDict (l : list (Z * R)).
Inductive eval_type := Logits | LogPost | Post.
(** what is handed to sklearn.linear_model.LogisticRegression(C=, fit_intercept=, intercept_scaling=).fit(x, class_ids, sample_weight=) *)
Record call := mk_call { k_C : R; k_bias : bool; k_scale : R; k_x : list (list R); k_ids : list Z; k_w : list R }.
Definition solver := call -> res (list (list R) * list R).
(** the object; coef_ and intercept_ of scikit-learn are None before training: logistic_regression.py:22-111 *)
Record lrm := mk_lrm { l_priors : priors; l_lambda : R; l_bias : bool; l_scale : R; l_ovr : bool; l_fit : option (list (list R) * list R) }.
(** bias_scaling=None is replaced by 100 for liblinear with a bias and by 1 otherwise: logistic_regression.py:79-83 *)
Definition scaling (s : option R) (use_bias liblinear : bool) : R := match s with Some s => s | None => if use_bias && liblinear then 100 else 1 end.
(** LogisticRegression(...): A is given by its columns (the rows of coef_), b is divided by the scaling: logistic_regression.py:98-102.
    Only one of A, b given is not modelled. *)
Definition lr_make (Ab : option (list (list R) * list R)) (lambda : R) (use_bias : bool) (s : option R) (liblinear : bool) (p : priors) (ovr : bool) : lrm :=
  let s := scaling s use_bias liblinear in
  mk_lrm p lambda use_bias s ovr (match Ab with Some (A, b) => Some (A, map (fun v => v / s) b) | None => None end).
(** BinaryLogisticRegression(...): binary_logistic_regression.py:16-28. lambda_reg is passed as labmda_reg, which LogisticRegression collects
    in kwargs and HypModel drops, so the default 1e-5 is used *)
Definition bin_make (Ab : option (list (list R) * list R)) (lambda : R) (use_bias : bool) (s : option R) (liblinear : bool) (prior : R) : lrm :=
  lr_make Ab (/ 10 ^ 5) use_bias s liblinear (PDict [(0%Z, 1 - prior); (1%Z, prior)]) true.
(** self.priors[i] *)
Definition prior_at (p : priors) (i : Z) : res R :=
  match p with PNone => Err TypeError | PList l => get_item l i | PDict l => match find (fun q => Z.eqb (fst q) i) l with Some q => Ok (snd q) | None => Err KeyError end end.
Definition count_of (ids : list Z) (c : Z) : nat := List.length (filter (Z.eqb c) ids).
(** logistic_regression.py:141-149: the class weights priors/counts at the class of each sample. np.bincount raises ValueError for negative
    ids; the assertion always holds. A class without samples has weight inf, which is not used. *)
Definition base_weights (p : priors) (ids : list Z) : res (list R * list R) :=
  m <- zmax ids ;;
  if existsb (fun c => Z.ltb c 0) ids then Err ValueError else
  let K := Z.to_nat (m + 1) in
  ps <- (match p with PNone => Ok (repeat (1 / INR K) K) | _ => mapM (fun i => prior_at p (Z.of_nat i)) (seq 0 K) end) ;;
  Ok (ps, map (fun c => nth (Z.to_nat c) ps 0 / INR (count_of ids c)) ids).
(** a -= b for one-dimensional arrays *)
Definition isub (a b : list R) : res (list R) :=
  if Nat.eqb (List.length a) (List.length b) then Ok (map (fun p => fst p - snd p) (combine a b)) else
  match b with [v] => Ok (map (fun u => u - v) a) | _ => Err ValueError end.
(** logistic_regression.py:138-165. The second result is the caller's weight array afterwards: it is multiplied in place. *)
Definition lr_fit (sk : solver) (m : lrm) (x : list (list R)) (ids : list Z) (sw : option (list R)) : res (lrm * option (list R)) :=
  '(ps, cw) <- base_weights (l_priors m) ids ;;
  w <- (match sw with
        | None => Ok cw
        | Some s => if Nat.eqb (List.length s) (List.length cw) then Ok (map (fun p => fst p * snd p) (combine s cw)) else Err ValueError
        end) ;;
  '(coef, int) <- sk (mk_call (1 / l_lambda m) (l_bias m) (l_scale m) x ids w) ;;
  int' <- (if l_ovr m then
             match int with
             | [_] => p <- prior_at (l_priors m) 1 ;; isub int [ln (p / (1 - p)) / l_scale m]
             | _ => match l_priors m with
                    | PNone => isub int (map (fun p => ln (p / (1 - p)) / l_scale m) ps)
                    | _ => Err TypeError (* 1 - list *)
                    end
             end
           else match l_priors m with
                | PList l => isub int (map (fun p => ln p / l_scale m) l)
                | _ => Err TypeError (* np.log of None or of a dictionary *)
                end) ;;
  Ok (mk_lrm (l_priors m) (l_lambda m) (l_bias m) (l_scale m) (l_ovr m) (Some (coef, int')), match sw with Some _ => Some w | None => None end).
(** np.dot of a row with a coefficient row *)
Definition dotr (a x : list R) : R := Rsum (map (fun p => fst p * snd p) (combine a x)).
Definition dotc (a x : list R) : res R := if Nat.eqb (List.length a) (List.length x) then Ok (dotr a x) else Err ValueError.
(** a + b for one-dimensional arrays, with broadcasting *)
Definition badd (a b : list R) : res (list R) :=
  if Nat.eqb (List.length a) (List.length b) then Ok (map (fun p => fst p + snd p) (combine a b)) else
  match a, b with _, [v] => Ok (map (fun u => u + v) a) | [u], _ => Ok (map (fun v => u + v) b) | _, _ => Err ValueError end.
(** np.log(self.priors) *)
Definition log_priors (p : priors) : res (list R) := match p with PList l => Ok (map ln l) | _ => Err TypeError end.
(** logistic_regression.py:123-134: A and b of the object (AttributeError before training) *)
Definition lr_predict (m : lrm) (e : eval_type) (x : list (list R)) : res (list (list R)) :=
  match l_fit m with
  | None => Err AttributeError
  | Some (coef, int) =>
    mapM (fun r => d <- mapM (fun a => dotc a r) coef ;; y <- badd d (map (fun b => b * l_scale m) int) ;;
      match e with
      | Logits => Ok y
      | Post => lp <- log_priors (l_priors m) ;; z <- badd y lp ;; softmax z
      | LogPost => lp <- log_priors (l_priors m) ;; z <- badd y lp ;; s <- softmax z ;; Ok (map (fun v => ln (v + / 10 ^ 10)) s)
      end) x
  end.
(** binary_logistic_regression.py:46-57: one number per sample *)
Definition bin_predict (m : lrm) (e : eval_type) (x : list (list R)) : res (list R) :=
  match l_fit m with
  | None => Err AttributeError
  | Some (coef, int) =>
    d <- mapM (fun r => mapM (fun a => dotc a r) coef) x ;;
    y <- badd (concat d) (map (fun b => b * l_scale m) int) ;;
    match e with
    | Logits => Ok y
    | _ => p <- prior_at (l_priors m) 1 ;;
      Ok (map (fun v => match e with LogPost => - ln (1 + exp (- (v + ln (p / (1 - p))))) | _ => 1 / (1 + exp (- (v + ln (p / (1 - p))))) end) y)
    end
  end.
(** save_params and get_config write A, b, use_bias, bias_scaling and the prior(s); load_params passes them to the constructor, which takes
    its defaults for the rest (solver liblinear for the binary class, lbfgs otherwise; multinomial): logistic_regression.py:114-119, 169-180,
    binary_logistic_regression.py:38-42. The priors are a list (the keys of a dictionary become strings in the file). The rounding of the file's 32-bit numbers is not modelled. *)
Definition lr_reload (m : lrm) : res lrm :=
  match l_fit m with
  | None => Err AttributeError
  | Some (coef, int) => Ok (lr_make (Some (coef, map (fun b => b * l_scale m) int)) (/ 10 ^ 5) (l_bias m) (Some (l_scale m)) false (l_priors m) false)
  end.
Definition bin_reload (m : lrm) : res lrm :=
  match l_fit m with
  | None => Err AttributeError
  | Some (coef, int) => p <- prior_at (l_priors m) 1 ;; Ok (bin_make (Some (coef, map (fun b => b * l_scale m) int)) (/ 10 ^ 6) (l_bias m) (Some (l_scale m)) true p)
  end.
