(** Model of hyperion/utils/math.py:108-164: softmax, logsumexp, logsigmoid, neglogsigmoid, sigmoid, along one axis.
    Exact real arithmetic (np.exp overflows to inf for arguments above 709, which the masks of the sigmoids then overwrite; rounding is
    not modelled). The sigmoids are given element by element; they need arrays (a Python float does not accept item assignment). *)
From Coq Require Import Reals.
From Verif Require Export Base.
Open Scope list_scope.
Open Scope R_scope.

Definition Rsum (l : list R) : R := fold_right Rplus 0 l.
(** np.max; ValueError for an empty axis *)
Definition Rmaximum (l : list R) : res R := match l with [] => Err ValueError | x :: l => Ok (fold_left Rmax l x) end.
(** math.py:108-116 *)
Definition softmax (r : list R) : res (list R) :=
  m <- Rmaximum r ;;
  let e := map (fun v => exp (v - m)) r in
  Ok (map (fun v => v / Rsum e) e).
(** math.py:119-126 *)
Definition eps : R := / 10 ^ 20.
Definition logsumexp (r : list R) : res R :=
  m <- Rmaximum r ;;
  let e := map (fun v => exp (v - m)) r in
  Ok (ln (Rsum e + eps) + m).
(** math.py:130-139 *)
Definition logsigmoid (x : R) : R := if Rlt_dec x (-100) then x else - ln (1 + exp (- x)).
(** math.py:143-152 *)
Definition neglogsigmoid (x : R) : R := if Rlt_dec x (-100) then - x else ln (1 + exp (- x)).
(** math.py:155-164 *)
Definition sigmoid (x : R) : R := if Rlt_dec x (-100) then 0 else 1 / (1 + exp (- x)).
