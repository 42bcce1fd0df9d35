(** Model of the transforms with uncertainty propagation: hyperion/transforms/cent_whiten_up.py, lnorm_up.py, and of
    hyperion/classifiers/linear_gbe_up.py, on mathcomp matrices over a real closed field (exact arithmetic; the code uses float64).
    A row of the input holds a mean followed by the diagonal of its covariance. The functions write into their argument, so every
    model function returns the argument as the caller sees it afterwards next to the value. *)
From Verif Require Base.
From Verif Require Import LinTrans.
Set Warnings "-notation-overridden,-ambiguous-paths".
From mathcomp Require Import all_ssreflect all_algebra.
Set Implicit Arguments. Unset Strict Implicit. Unset Printing Implicit Defensive.
Import GRing.Theory Num.Theory.
Local Open Scope ring_scope.
Notation value_error := Verif.Base.ValueError. Notation not_implemented := Verif.Base.NotImplemented.

Section TransUP.
Variable F : rcfType.
(** entry of a matrix at a column number, 0 outside *)
Definition at0 {m n} (A : 'M[F]_(m, n)) (i : 'I_m) (j : nat) : F := if insub j is Some j' then A i j' else 0.
(** [x[:, off:off+len]] *)
Definition part {m n} (off len : nat) (A : 'M[F]_(m, n)) : 'M[F]_(m, len) := \matrix_(i, j) at0 A i (off + j).

(** lines 33-34 of cent_whiten_up.py for one row: [np.diag(np.dot(T.T * s2, T))]. T.T has shape (k, d) and s2 length q; with q = 1 numpy broadcasts. *)
Definition diag_prop {N d q k} (T : 'M[F]_(d, k)) (S2 : 'M[F]_(N, q)) (i : 'I_N) (j : nat) : F :=
  \sum_(l < d) at0 T l j * at0 S2 i (if q == 1%N then 0%N else l) * at0 T l j.
(** CentWhitenUP.predict: cent_whiten_up.py:28-35 ([super().predict] is cent_whiten.py:30-38). The half is h = int(x.shape[-1]/2) and the
    variances are the other q columns: q is h or h + 1 (an odd column goes to the variances); the theorems say which. The loop runs once per
    row: without rows nothing in it can fail. A row of length q takes k values if k = q, or if k = 1 (numpy broadcasts the value); otherwise
    the assignment raises ValueError, as does the product of T.T and s2 when the halves differ and q is not 1. All rows fail alike, so a
    failing call has written nothing. s2_x is a view of x: x is returned updated.
    Simplified: mu has the length of the first half and T as many rows (the type says so); x is an array of floats. *)
Definition up_predict {N h q} (mu : option 'rV[F]_h) (T : trans F h) (X : 'M[F]_(N, h + q)) : res ({k & 'M[F]_(N, k)} * 'M[F]_(N, h + q)) :=
  let s2 := rsubmx X in
  match cent_whiten_predict mu T (lsubmx X) with
  | Verif.Base.Err e => err e
  | Verif.Base.Ok (existT k m) =>
    if N == 0%N then ok (existT _ (k + q)%N (row_mx m s2), X)
    else match T with
    | NoT => err attribute_error
    | VecT _ => err name_error
    | MatT k T => if ((h == q) || (q == 1%N)) && ((k == q) || (k == 1%N))
        then let new : 'M[F]_(N, q) := \matrix_(i, j) diag_prop T s2 i (if k == 1%N then 0%N else j) in
             ok (existT _ _ (row_mx m new), row_mx (lsubmx X) new)
        else err value_error
    end
  end.
(** CentWhitenUP.fit: cent_whiten_up.py:39-41, with update_mu and update_T (cent_whiten.py:42-69) *)
Definition up_fit {N n q} (chol : 'M[F]_n.+1 -> option 'M[F]_n.+1) (eigh : 'M[F]_n.+1 -> 'rV[F]_n.+1 * 'M[F]_n.+1) (X : 'M[F]_(N, n.+1 + q)) :=
  cent_whiten_fit chol eigh (lsubmx X).
(** LNormUP.predict: lnorm_up.py:20-30; eps is the constant 1e-10. The array divided here is the one hstack made, split again at half its width. *)
Definition lnorm_rows {N D} (eps : F) (X : 'M[F]_(N, D)) : 'M[F]_(N, D) :=
  let mx2 i := norm2 (row i (part 0 D./2 X)) + eps in
  \matrix_(i, j) (if (j < D./2)%N then X i j / Num.sqrt (mx2 i) else X i j / mx2 i).
Definition lnorm_up_predict {N h q} (eps : F) (mu : option 'rV[F]_h) (T : trans F h) (X : 'M[F]_(N, h + q)) : res ({k & 'M[F]_(N, k)} * 'M[F]_(N, h + q)) :=
  match up_predict mu T X with
  | Verif.Base.Err e => err e
  | Verif.Base.Ok (existT k x, X') => ok (existT _ k (lnorm_rows eps x), X')
  end.
End TransUP.

(** A slice bound: numpy takes integers and refuses floats. [x.shape[-1]/2] is a true division (both files import it from __future__), which
    gives a float whatever the operands are; [int(...)] makes it an integer again. *)
Inductive bound := IntB of nat | FloatB of nat & nat.
Definition true_div (a b : nat) : bound := FloatB a b.
Definition to_int (b : bound) : bound := match b with IntB n => IntB n | FloatB a b => IntB (a %/ b) end.
Definition upto (b : bound) (width : nat) : res nat := match b with IntB n => ok (minn n width) | FloatB _ _ => err type_error end.
(** linear_gbe_up.py:44-46 and 105-107: both slice before they look at anything else; the rest of the two functions is never reached *)
Definition gbe_up_eval_linear {V : Type} (rest : nat -> res V) (width : nat) : res V :=
  match upto (true_div width 2) width with Verif.Base.Err e => err e | Verif.Base.Ok h => rest h end.
(** predict of the base class: linear_gbe.py:140-153, with linear_gbe_up.py:62-63 and 72-73; [norm] stands for the log of the softmax *)
Inductive gbe_method := Linear' | Llk | Predictive | OtherMethod.
Definition gbe_up_predict {V : Type} (rest : nat -> res V) (norm : V -> V) (m : gbe_method) (normalize : bool) (width : nat) : res V :=
  match (match m with Linear' => gbe_up_eval_linear rest width | Llk => err not_implemented | Predictive => err not_implemented | OtherMethod => err value_error end) with
  | Verif.Base.Err e => err e
  | Verif.Base.Ok v => ok (if normalize then norm v else v)
  end.
(** fit: linear_gbe_up.py:105-107 *)
Definition gbe_up_fit {V : Type} (rest : nat -> res V) (width : nat) : res V := gbe_up_eval_linear rest width.
