(** Model of the Gaussian objectives, samplers and layers with full covariances of the Keras part: hyperion/keras/objectives.py:22-104
    (diag_normal, normal, normal_1chol, kl_normal_vs_std_normal, kl_normal_vs_diag_normal), keras/layers/sampling.py:347-425 (NormalSampler),
    keras/constraints.py:27-56 (Triu), keras/layers/pooling.py:1049-1131 (GlobalProdRenormNormalConstCovStdPrior) and keras/layers/cov.py:141-190
    (MultConstCovStdPrior), for one sample of the batch, on mathcomp matrices over a real closed field (exact arithmetic) with an abstract
    logarithm and exponential. [c] is log2pi. matrix_inverse of a singular matrix is an error. The code transposes matrices with .T, that only exists with the Theano backend. *)
From Verif Require Base.
From Verif Require Import LinAlg.
Set Warnings "-notation-overridden,-ambiguous-paths".
From mathcomp Require Import all_ssreflect all_algebra.
Set Implicit Arguments. Unset Strict Implicit. Unset Printing Implicit Defensive.
Import Order.TTheory GRing.Theory Num.Theory.
Local Open Scope ring_scope.

Section GaussSample.
Variable F : rcfType.
Variable ln ex : F -> F.
Variable c : F.

(** product of rows, element by element *)
Definition had {n} (a b : 'rV[F]_n) : 'rV[F]_n := \row_j (a 0 j * b 0 j).
(** K2.matrix_inverse *)
Definition kinv {n} (A : 'M[F]_n) : res 'M[F]_n := if A \in unitmx then ok (invmx A) else err linalg_error.

(** ** Objectives *)
(** objectives.py:22-26 *)
Definition diag_normal {n} (y mean logvar : 'rV[F]_n) : F :=
  let var := map_mx ex logvar in
  let dist2 := \row_j ((y - mean) 0 j ^+ 2 / var 0 j) in
  2%:R^-1 * \sum_j (c + logvar 0 j + dist2 0 j).
(** objectives.py:40-50, normal; lines 29-37, normal_1chol, are the same with one matrix for the batch. K.batch_dot(dist, iy_chol, axes=(1, 1))
    contracts the features with the rows of iy_chol *)
Definition normal {n} (y mean logvar : 'rV[F]_n) (chol : 'M[F]_n) : res F :=
  let isigma := map_mx (fun v => ex (- v / 2%:R)) logvar in
  let! ichol := kinv chol in
  let dist := y - mean in
  let distn := had (dist *m ichol) isigma in
  ok (2%:R^-1 * \sum_j (c + logvar 0 j + distn 0 j ^+ 2)).
(** objectives.py:90-94; beta is not zero *)
Definition kl_std {n} (mean logvar : 'rV[F]_n) (beta : F) : F :=
  let T := 1 / beta in
  - 2%:R^-1 * \sum_j ((T - 1) * c + T + T * logvar 0 j - mean 0 j ^+ 2 - ex (logvar 0 j)).
(** objectives.py:97-104 *)
Definition kl_diag {n} (mean1 logvar1 mean2 logvar2 : 'rV[F]_n) (beta : F) : F :=
  let T := 1 / beta in
  let v1 := map_mx ex logvar1 in let v2 := map_mx ex logvar2 in
  - 2%:R^-1 * \sum_j ((T - 1) * c + T + T * logvar1 0 j - logvar2 0 j - ((mean1 0 j - mean2 0 j) ^+ 2 + v1 0 j) / v2 0 j).

(** ** Samplers; [eps] are the standard normal numbers that K.random_normal draws *)
(** sampling.py:401-412, _g_logvar_chol *)
Definition g_logvar_chol {n} (mu logvar : 'rV[F]_n) (chol : 'M[F]_n) (eps : 'rV[F]_n) : 'rV[F]_n :=
  mu + had eps (map_mx (fun v => ex (v / 2%:R)) logvar) *m chol.
(** sampling.py:415-419, _g_var_chol: axes=(1, 2) contracts with the columns of chol *)
Definition g_var_chol {n} (mu var : 'rV[F]_n) (chol : 'M[F]_n) (eps : 'rV[F]_n) : 'rV[F]_n :=
  mu + had (map_mx (fun v => Num.sqrt `|v|) var) (eps *m chol^T).
(** sampling.py:421-425, _g_std_chol *)
Definition g_std_chol {n} (mu s : 'rV[F]_n) (chol : 'M[F]_n) (eps : 'rV[F]_n) : 'rV[F]_n :=
  mu + had (map_mx (fun v => `|v|) s) (eps *m chol^T).

(** ** constraints.py:27-56, Triu(dim, diag_val): the mask is the strict upper triangle, or with diag_val=None the upper triangle *)
Definition triu_constraint {n} (diag_val : option F) (p : 'M[F]_n) : 'M[F]_n :=
  match diag_val with
  | None => \matrix_(i, j) (if (i <= j)%N then 1 * p i j else 0 * p i j)
  | Some d => let q := \matrix_(i, j) (if (i < j)%N then 1 * p i j else 0 * p i j) in if d != 0 then q + d%:M else q
  end.

(** ** pooling.py:1101-1131, call of GlobalProdRenormNormalConstCovStdPrior: [D] and [chol] are trained, the frames are rows with weights *)
Definition const_cov_pool {n m} (D : 'rV[F]_n) (chol : 'M[F]_n) (x : 'I_m -> 'rV[F]_n) (w : 'I_m -> F) : res ('rV[F]_n * 'rV[F]_n * 'M[F]_n) :=
  let gamma := \sum_i (w i *: x i) in
  let N := \sum_i w i in
  let var_i := map_mx ex D in
  let cov_i := (\matrix_(i, j) (chol^T i j * var_i 0 j)) *m chol in
  let! prec_i := kinv cov_i in
  let prec := 1%:M + N *: prec_i in
  let! cov := kinv prec in
  let cov := 2%:R^-1 *: (cov + cov^T) in
  let mu := gamma *m cov in
  let! C := cholesky cov in
  let sigma := \row_i C i i in
  ok (mu, \row_i (2%:R * ln (sigma 0 i)), \matrix_(i, j) (C i j / sigma 0 i)).

(** ** cov.py:180-190, call of MultConstCovStdPrior: var*self.chol scales the columns of chol *)
Definition mult_const_cov {n} (D : 'rV[F]_n) (chol : 'M[F]_n) (x : 'rV[F]_n) : 'rV[F]_n * 'rV[F]_n * 'M[F]_n :=
  let logvar := \row_j (- ln (1 + ex (D 0 j))) in
  let var := map_mx ex logvar in
  let cov := chol^T *m \matrix_(i, j) (var 0 j * chol i j) in
  (x *m cov, logvar, chol).
End GaussSample.
