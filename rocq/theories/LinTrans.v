(** Model of the linear transforms of hyperion/transforms (cent_whiten.py, pca.py, lda.py, nda.py, nap.py, lnorm.py, mvn.py, sb_sw.py) on
    mathcomp matrices over a real closed field, i.e. with exact arithmetic and square roots (the code uses float64: rounding is not
    modelled). Samples are rows, as in the code. scipy's la.eigh and la.cholesky are library functions: they are arguments here, and the
    theorems state what is assumed of their results. A transform matrix is returned together with its number of columns. *)
From Verif Require Base.
Set Warnings "-notation-overridden,-ambiguous-paths".
From mathcomp Require Import all_ssreflect all_algebra.
Set Implicit Arguments. Unset Strict Implicit. Unset Printing Implicit Defensive.
Import GRing.Theory Num.Theory.
Local Open Scope ring_scope.
Notation ok := Verif.Base.Ok. Notation err := Verif.Base.Err. Notation res := Verif.Base.res.
Notation assertion_error := Verif.Base.AssertionError. Notation name_error := Verif.Base.NameError.
Notation attribute_error := Verif.Base.AttributeError. Notation linalg_error := Verif.Base.RuntimeErr.
Notation type_error := Verif.Base.TypeError.

Section LinTrans.
Variable F : rcfType.

(** [np.mean(x, axis=0)] *)
Definition mean {N n} (X : 'M[F]_(N, n)) : 'rV[F]_n := \row_j ((\sum_i X i j) / N%:R).
(** [x - mu] with broadcasting over the rows *)
Definition sub_row {N n} (X : 'M[F]_(N, n)) (mu : 'rV[F]_n) : 'M[F]_(N, n) := \matrix_(i, j) (X i j - mu 0 j).

(** [np.fliplr(V)] *)
Definition fliplr {m n} (V : 'M[F]_(m, n)) : 'M[F]_(m, n) := \matrix_(i, j) V i (rev_ord j).
(** [p = V[0,:] < 0; V[:,p] *= -1] *)
Definition fix_signs {m n} (V : 'M[F]_(m.+1, n)) : 'M[F]_(m.+1, n) := \matrix_(i, j) (if V ord0 j < 0 then - V i j else V i j).
(** [V *= s] with s of shape (n,) *)
Definition scale_cols {m n} (V : 'M[F]_(m, n)) (s : 'rV[F]_n) : 'M[F]_(m, n) := \matrix_(i, j) (V i j * s 0 j).
(** [V[:, mask]] *)
Definition sel_cols {m n} (V : 'M[F]_(m, n)) (p : pred 'I_n) : 'M[F]_(m, #|p|) := \matrix_(i, j) V i (enum_val j).
(** [V[:, :k]] for k <= n.+1 *)
Definition first_cols {m n} (k : nat) (V : 'M[F]_(m, n.+1)) : 'M[F]_(m, k) := \matrix_(i, j) V i (inord j).

(** cent_whiten.py:57-69, the matrix made from the eigenvalues d and eigenvectors V of C: columns scaled by sqrt(1/d), largest eigenvalue
    first, signs fixed, columns with d <= 0 (nan or inf in the code) removed. The code skips the removal if all d > 0: the same matrix. *)
Definition whiten_T {n} (d : 'rV[F]_n.+1) (V : 'M[F]_n.+1) : {k & 'M[F]_(n.+1, k)} :=
  let V1 := fix_signs (fliplr (scale_cols V (map_mx (fun z => Num.sqrt (1 / z)) d))) in
  existT _ _ (sel_cols V1 [pred j | 0 < d 0 (rev_ord j)]).

(** pdfs/core/normal.py:89-116, 136-153 through exp_family.py:36-51 without sample weights: mu = F/N, S = x'x/N - mu'mu,
    Lambda = inverse of S by Cholesky (LinAlgError when S is not positive definite), and the property Sigma (normal.py:75-79) inverts
    Lambda again (its Cholesky decomposition exists since Lambda is then positive definite). The packing of symmetric matrices into
    vectors (symmat2vec / vec2symmat) is modelled in SymMat.v and is the identity here. *)
Definition normal_fit {N n} (chol : 'M[F]_n -> option 'M[F]_n) (X : 'M[F]_(N, n)) : res ('rV[F]_n * 'M[F]_n) :=
  let mu := mean X in
  let S := (N%:R)^-1 *: (X^T *m X) - mu^T *m mu in
  match chol S with
  | None => err linalg_error
  | Some R => let Lambda := invmx (R^T *m R) in ok (mu, invmx Lambda)
  end.

(** cent_whiten.py:42-69 with both updates on and data x: the pair (mu, T) *)
Definition cent_whiten_fit {N n} (chol : 'M[F]_n.+1 -> option 'M[F]_n.+1) (eigh : 'M[F]_n.+1 -> 'rV[F]_n.+1 * 'M[F]_n.+1)
  (X : 'M[F]_(N, n.+1)) : res ('rV[F]_n.+1 * {k & 'M[F]_(n.+1, k)}) :=
  match (if (n.+1 < N)%N then normal_fit chol X else ok (mean X, 1%:M)) with
  | Verif.Base.Err e => err e
  | Verif.Base.Ok (mu, C) => let dV := eigh C in ok (mu, whiten_T dV.1 dV.2)
  end.
(** the same with given statistics (x=None) *)
Definition cent_whiten_fit_stats {n} (eigh : 'M[F]_n.+1 -> 'rV[F]_n.+1 * 'M[F]_n.+1) (mu : 'rV[F]_n.+1) (C : 'M[F]_n.+1) :=
  let dV := eigh C in (mu, whiten_T dV.1 dV.2).

(** predict of CentWhiten (cent_whiten.py:30-38), PCA (pca.py:32-35), LDA (lda.py:34-37), NDA (nda.py:28-31) with mu and a matrix T *)
Definition predict {N n k} (mu : 'rV[F]_n) (T : 'M[F]_(n, k)) (X : 'M[F]_(N, n)) : 'M[F]_(N, k) := sub_row X mu *m T.
(** CentWhiten.predict in general: T may be None, a vector (line 35 names a variable T that does not exist) or a matrix; mu may be None *)
Inductive trans n := NoT | VecT of 'rV[F]_n | MatT k of 'M[F]_(n, k).
Definition cent_whiten_predict {N n} (mu : option 'rV[F]_n) (T : trans n) (X : 'M[F]_(N, n)) : res {k & 'M[F]_(N, k)} :=
  let x := if mu is Some m then sub_row X m else X in
  match T with
  | NoT => ok (existT _ n x)
  | VecT _ => err name_error
  | MatT k T => ok (existT _ k (x *m T))
  end.

(** eigenvectors in descending order with fixed signs, the first k of them: pca.py:53-64, lda.py:57-68, nda.py:39-50. k stands for
    pca_dim / lda_dim / nda_dim; a negative value passes the assertion and drops columns from the end: not modelled. *)
Definition top_eigvecs {m} (V : 'M[F]_m.+1) (dim : option nat) : res {k & 'M[F]_(m.+1, k)} :=
  let V1 := fix_signs (fliplr V) in
  match dim with
  | None => ok (existT _ _ V1)
  | Some k => if (k <= m.+1)%N then ok (existT _ _ (first_cols k V1)) else err assertion_error
  end.

(** pca.py:39-64 with data and both updates on *)
Definition pca_fit {N n} (eigh : 'M[F]_n.+1 -> 'rV[F]_n.+1 * 'M[F]_n.+1) (dim : option nat) (X : 'M[F]_(N, n.+1))
  : res ('rV[F]_n.+1 * {k & 'M[F]_(n.+1, k)}) :=
  let mu := mean X in
  let delta := sub_row X mu in
  let C := (N%:R)^-1 *: (delta^T *m delta) in
  match top_eigvecs (eigh C).2 dim with Verif.Base.Err e => err e | Verif.Base.Ok T => ok (mu, T) end.

(** sb_sw.py:30-56: SbSw.fit with normalize=True. class_ids are the numbers y; the loop is over the distinct ids. *)
Definition class_mean {N n} (X : 'M[F]_(N, n)) (y : 'I_N -> nat) (c : nat) : 'rV[F]_n :=
  \row_j ((\sum_(i | y i == c) X i j) / (#|[pred i | y i == c]|)%:R).
Definition ids {N} (y : 'I_N -> nat) : seq nat := undup [seq y i | i <- enum 'I_N].
Definition sbsw_fit {N n} (X : 'M[F]_(N, n)) (y : 'I_N -> nat) : 'rV[F]_n * 'M[F]_n * 'M[F]_n :=
  let K := (size (ids y))%:R in
  let mu := K^-1 *: \sum_(c <- ids y) class_mean X y c in
  let Sb := K^-1 *: (\sum_(c <- ids y) (class_mean X y c)^T *m class_mean X y c) - mu^T *m mu in
  let Sw := K^-1 *: \sum_(c <- ids y) ((#|[pred i | y i == c]|)%:R)^-1 *:
               (\sum_(i | y i == c) (row i X - class_mean X y c)^T *m (row i X - class_mean X y c)) in
  (mu, Sb, Sw).
(** lda.py:40-68 with data and both updates on; [la.eigh(Sb, Sw)] solves the generalised problem *)
Definition lda_fit {N n} (geigh : 'M[F]_n.+1 -> 'M[F]_n.+1 -> 'rV[F]_n.+1 * 'M[F]_n.+1) (dim : option nat) (X : 'M[F]_(N, n.+1)) (y : 'I_N -> nat)
  : res ('rV[F]_n.+1 * {k & 'M[F]_(n.+1, k)}) :=
  let: (mu, Sb, Sw) := sbsw_fit X y in
  match top_eigvecs (geigh Sb Sw).2 dim with Verif.Base.Err e => err e | Verif.Base.Ok T => ok (mu, T) end.
(** nda.py:34-50: the statistics are arguments *)
Definition nda_fit {n} (geigh : 'M[F]_n.+1 -> 'M[F]_n.+1 -> 'rV[F]_n.+1 * 'M[F]_n.+1) (mu : 'rV[F]_n.+1) (Sb Sw : 'M[F]_n.+1) (dim : option nat)
  : res ('rV[F]_n.+1 * {k & 'M[F]_(n.+1, k)}) :=
  match top_eigvecs (geigh Sb Sw).2 dim with Verif.Base.Err e => err e | Verif.Base.Ok T => ok (mu, T) end.

(** nap.py:25-26 *)
Definition nap_predict {N n k} (U : 'M[F]_(k, n)) (X : 'M[F]_(N, n)) : 'M[F]_(N, n) := X - X *m U^T *m U.
(** nap.py:29-31: the third line calls np.uniqe *)
Definition nap_fit {N n} (X : 'M[F]_(N, n)) (u_dim : nat) (y : 'I_N -> nat) : res 'M[F]_(u_dim, n) := err attribute_error.

(** lnorm.py:18-21; eps is the constant 1e-10 *)
Definition norm2 {n} (v : 'rV[F]_n) : F := \sum_j v 0 j ^+ 2.
Definition lnorm {N n} (eps : F) (X : 'M[F]_(N, n)) : 'M[F]_(N, n) :=
  \matrix_(i, j) (Num.sqrt n%:R * X i j / (Num.sqrt (norm2 (row i X)) + eps)).
Definition lnorm_predict {N n} (eps : F) (mu : option 'rV[F]_n) (T : trans n) (X : 'M[F]_(N, n)) : res {k & 'M[F]_(N, k)} :=
  match cent_whiten_predict mu T X with
  | Verif.Base.Err e => err e
  | Verif.Base.Ok (existT k x) => ok (existT _ k (lnorm eps x))
  end.

(** mvn.py:26-35 *)
Definition mvn_fit {N n} (X : 'M[F]_(N, n)) : 'rV[F]_n * 'rV[F]_n :=
  (mean X, \row_j Num.sqrt ((\sum_i (X i j - mean X 0 j) ^+ 2) / N%:R)).
Definition mvn_predict {N n} (mu s : option 'rV[F]_n) (X : 'M[F]_(N, n)) : 'M[F]_(N, n) :=
  let x := if mu is Some m then sub_row X m else X in
  if s is Some s then \matrix_(i, j) (x i j / s 0 j) else x.
End LinTrans.
