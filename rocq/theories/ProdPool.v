(** Model of the product pooling layers with diagonal covariances, hyperion/keras/layers/pooling.py:425-1008, in real
    arithmetic. The features do not interact, so the functions give one output feature of one sequence from its frames: the
    weight, the first and (if there is one) the second input of that feature. The shapes of the tensors are modelled apart.
    relu is max(x, 0); the logarithm of a number that is not positive and a division by zero are not numbers (None). *)
From Coq Require Import ZArith List Bool Reals.
From Verif Require Import Base ScoreNorm.
Import ListNotations.
Open Scope list_scope. Open Scope R_scope.

Definition relu (x : R) : R := Rmax x 0.
Definition klog (x : R) : option R := if Rlt_dec 0 x then Some (ln x) else None.
(** one frame: weight, first input, second input *)
Definition frame := (R * R * R)%type.
Definition fw (f : frame) : R := fst (fst f).
Definition fx (f : frame) : R := snd (fst f).
Definition fy (f : frame) : R := snd f.
Definition gamma_of (l : list frame) : R := Rsum (map (fun f => fx f * fw f) l).
Definition count_of (l : list frame) : R := Rsum (map fw l).
(** mu = gamma/prec, logvar = -K.log(prec) *)
Definition finish_div (gamma prec : R) : option R * option R := (odiv gamma prec, option_map Ropp (klog prec)).
(** logvar = -K.log(prec), mu = gamma*K.exp(logvar) *)
Definition finish_exp (gamma prec : R) : option R * option R :=
  let logvar := option_map Ropp (klog prec) in (option_map (fun v => gamma * exp v) logvar, logvar).

(** GlobalProdRenormDiagNormalStdPrior.call, lines 438-451 *)
Definition std_prior (l : list frame) : option R * option R :=
  finish_div (gamma_of l) (1 + relu (Rsum (map (fun f => exp (- fy f) * fw f) l))).
(** GlobalProdRenormDiagNormalStdPrior2.call, lines 473-485; [b] is min_var *)
Definition std_prior2 (b : R) (l : list frame) : option R * option R :=
  finish_div (gamma_of l) (1 + Rsum (map (fun f => (1 - b) / (b + exp (- fy f)) * fw f) l)).
(** GlobalProdRenormDiagNormalStdPrior3.call, lines 515-526: the mean over the frames of x*weights *)
Definition std_prior3 (b : R) (l : list frame) : option R * option R :=
  (odiv (gamma_of l) (INR (List.length l)), option_map Ropp (klog (1 + Rsum (map (fun f => (1 - b) / (b + exp (- fy f)) * fw f) l)))).
(** GlobalProdRenormDiagNormalCommonCovStdPrior.call, lines 554-564; one logvar for the whole sequence *)
Definition common_cov (logvar : R) (l : list frame) : option R * option R :=
  finish_div (gamma_of l) (1 + count_of l * (exp (- logvar) - 1)).
(** GlobalProdRenormDiagNormalConstCovStdPrior.call, lines 745-753; [logvar] is the trained vector *)
Definition const_cov (logvar : R) (l : list frame) : option R * option R :=
  finish_exp (gamma_of l) (1 + count_of l * (exp (- logvar) - 1)).
(** GlobalProdRenormDiagNormalConstCovStdPrior2.call, lines 811-819 *)
Definition const_cov2 (prec_1 : R) (l : list frame) : option R * option R :=
  finish_exp (gamma_of l) (1 + count_of l * relu prec_1).
(** GlobalProdRenormDiagNormalConstCovStdPrior3.call, lines 889-896 *)
Definition const_cov3 (prec_1 bias : R) (l : list frame) : option R * option R :=
  finish_exp (gamma_of l) (1 + relu (count_of l * prec_1 + bias)).
(** GlobalProdRenormDiagNormalConstCovStdPrior4.call, lines 967-977 *)
Definition const_cov4 (prec_1 bias : R) (l : list frame) : option R * option R :=
  finish_exp (gamma_of l) (exp bias + count_of l * exp prec_1).

(** ** Shapes *)
Definition shape := list nat.
(** broadcasting, from the last dimension backwards; the shapes are given in reverse *)
Fixpoint bcast_rev (a b : shape) : res shape :=
  match a, b with
  | [], b => Ok b
  | a, [] => Ok a
  | x :: a, y :: b =>
    r <- bcast_rev a b ;;
    if Nat.eqb x y then Ok (x :: r) else if Nat.eqb x 1 then Ok (y :: r) else if Nat.eqb y 1 then Ok (x :: r) else Err ValueError
  end.
Definition bcast (a b : shape) : res shape := r <- bcast_rev (rev a) (rev b) ;; Ok (rev r).
(** K.sum(x, axis=1) *)
Definition sum1 (a : shape) : res shape := match a with x :: _ :: r => Ok (x :: r) | _ => Err ValueError end.

(** the layers that multiply x by the weights as they are: StdPrior2, StdPrior3 (lines 476-482, 518-524). Keras has
    checked that x and y have three dimensions and the weights at least two *)
Definition shape_prior2 (x y w : shape) : res shape :=
  if negb ((List.length x =? 3)%nat && (List.length y =? 3)%nat && (2 <=? List.length w)%nat) then Err ValueError else
  g <- bcast x w ;; g <- sum1 g ;; p <- bcast y w ;; p <- sum1 p ;; bcast g p.
(** StdPrior (lines 440-443): weights of two dimensions receive a last one *)
Definition shape_prior (x y w : shape) : res shape :=
  shape_prior2 x y (if (List.length w =? 2)%nat then w ++ [1%nat] else w).
(** ConstCovStdPrior, 2, 3 and 4 (lines 747-751, 813-818, 891-895, 969-976): [u] is units *)
Definition shape_const (u : nat) (x w : shape) : res shape :=
  if negb ((List.length x =? 3)%nat && (2 <=? List.length w)%nat) then Err ValueError else
  g <- bcast x w ;; g <- sum1 g ;; n <- sum1 w ;; p <- bcast n [u] ;; bcast g p.
(** CommonCovStdPrior (lines 545, 554-564): the input specification asks for weights of exactly two dimensions *)
Definition shape_common (x v w : shape) : res shape :=
  if negb ((List.length x =? 3)%nat && (List.length v =? 2)%nat && (List.length w =? 2)%nat) then Err ValueError else
  g <- bcast x w ;; g <- sum1 g ;; n <- sum1 w ;; p <- bcast n v ;; bcast g p.

(** GlobalProdRenormNormalCommonCovStdPrior.__init__, lines 1007-1008: super() of a class that the object is not an instance of *)
Definition normal_common_cov_layer {A : Type} : res A := Err TypeError.
