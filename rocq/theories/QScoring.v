(** Model of the Q-scoring back-end of hyperion/classifiers/q_scoring_homo_gbe.py: observations are Gaussian posteriors with diagonal covariance,
    given as a mean and a variance. Matrices over a real closed field (exact arithmetic; a division by zero is 0 here and excluded by the
    hypotheses of the theorems). The even number of columns of x is d + d. *)
From Verif Require Base.
From Verif Require Import LinAlg Gbe.
Set Warnings "-notation-overridden,-ambiguous-paths".
From mathcomp Require Import all_ssreflect all_algebra.
Set Implicit Arguments. Unset Strict Implicit. Unset Printing Implicit Defensive.
Import Order.TTheory GRing.Theory Num.Theory.
Local Open Scope ring_scope.

Section Q.
Variable F : rcfType.
Variables (ln expf : F -> F).
(** the object: q_scoring_homo_gbe.py:23-37; None is python's None *)
Record qgbe K d := QObj { q_mu : option 'M[F]_(K, d); q_W : option 'rV[F]_d; q_N : option 'rV[F]_K }.
(** an initialised object, the prior *)
Record qprior K d := QPrior { qp_mu : 'M[F]_(K, d); qp_W : 'rV[F]_d; qp_N : 'rV[F]_K }.
Record qconfig := QConfig { q_balance : bool; q_prior_N : option F; q_post_N : option F }.
Definition np_mean {K} (N : 'rV[F]_K) : F := (\sum_k N 0 k) / K%:R.
(** 1 + r/np.mean(N)*(W-1) *)
Definition rescale {K d} (r : F) (N : 'rV[F]_K) (W : 'rV[F]_d) : 'rV[F]_d := \row_j (1 + r / np_mean N * (W 0 j - 1)).
(** q_scoring_homo_gbe.py:62-68. The new W of the prior is made from the W of the object being trained; None - 1 raises TypeError. *)
Definition q_load_prior {K d} (cf : qconfig) (o : qgbe K d) (p : qprior K d) : res (qprior K d) :=
  if q_prior_N cf is Some r then
    if q_W o is Some W then ok (QPrior (qp_mu p) (rescale r (qp_N p) W) (const_mx r)) else err type_error
  else ok p.
(** q_scoring_homo_gbe.py:83-128, with p_theta of K columns *)
Definition q_fit {n K d} (cf : qconfig) (o : qgbe K d) (pr : option (qprior K d)) (x : 'M[F]_(n, d + d)) (p_theta : 'M[F]_(n, K))
    (sample_weight : option 'cV[F]_n) : res (qgbe K d) :=
  let! pr := (if pr is Some p then (let! q := q_load_prior cf o p in ok (Some q)) else ok None) in
  let pt := weigh p_theta sample_weight in
  let mu_x := lsubmx x in let s_x := rsubmx x in
  let prec_x : 'M[F]_(n, d) := \matrix_(i, j) (s_x i j)^-1 in
  let N := \row_k \sum_i pt i k in
  let eta := pt^T *m \matrix_(i, j) (prec_x i j * mu_x i j) in
  let prec : 'M[F]_(K, d) := \matrix_(k, j) (1 + (pt^T *m \matrix_(i, j) (prec_x i j - 1)) k j) in
  let eta := if pr is Some p then \matrix_(k, j) (eta k j + qp_W p 0 j * qp_mu p k j) else eta in
  let prec := if pr is Some p then \matrix_(k, j) (prec k j + (qp_W p 0 j - 1)) else prec in
  let N := if pr is Some p then N + qp_N p else N in
  let mu := \matrix_(k, j) ((prec k j)^-1 * eta k j) in
  let W : 'rV[F]_d := if q_balance cf then \row_j (1 + (\sum_k (prec k j - 1)) / K%:R)
    else \row_j (1 + (\sum_i (prec_x i j - 1)) / K%:R) in
  if q_post_N cf is Some r then ok (QObj (Some mu) (Some (rescale r N W)) (Some (const_mx r)))
  else ok (QObj (Some mu) (Some W) (Some N)).
(** q_scoring_homo_gbe.py:131-156 *)
Definition q_predict {n K d} (o : qgbe K d) (x : 'M[F]_(n, d + d)) (normalize : bool) : res 'M[F]_(n, K) :=
  match q_mu o, q_W o with
  | Some mu, Some W =>
    let mu_x := lsubmx x in let s_x := rsubmx x in
    let prec_x : 'M[F]_(n, d) := \matrix_(i, j) (s_x i j)^-1 in
    let eta_e : 'M[F]_(K, d) := \matrix_(k, j) (mu k j * W 0 j) in
    let eta_t : 'M[F]_(n, d) := \matrix_(i, j) (prec_x i j * mu_x i j) in
    let L_et : 'M[F]_(n, d) := \matrix_(i, j) (prec_x i j + W 0 j - 1) in
    let C_et : 'M[F]_(n, d) := \matrix_(i, j) (L_et i j)^-1 in
    let C_e : 'M[F]_(n, d) := \matrix_(i, j) (C_et i j - (W 0 j)^-1) in
    let C_t : 'M[F]_(n, d) := \matrix_(i, j) (C_et i j - (prec_x i j)^-1) in
    let r_e : 'M[F]_(K, n) := \matrix_(k, i) (\sum_j ln (W 0 j) + ((\matrix_(a, j) (eta_e a j * eta_e a j)) *m C_e^T) k i) in
    let r_t : 'cV[F]_n := \col_i (\sum_j ln (prec_x i j) + \sum_j C_t i j * eta_t i j ^+ 2) in
    let r_et : 'M[F]_(n, K) := \matrix_(i, k) (- (\sum_j ln (L_et i j)) + 2%:R * ((\matrix_(a, j) (eta_t a j * C_et a j)) *m eta_e^T) i k) in
    let logp : 'M[F]_(n, K) := \matrix_(i, k) (2%:R^-1 * (r_et i k + r_e k i + r_t i 0)) in
    if normalize then (let! p := softmax expf logp in ok (map_mx ln p)) else ok logp
  | _, _ => err type_error
  end.
End Q.
