(** Model of the linear Gaussian back-end classifier of hyperion/classifiers/linear_gbe.py on mathcomp matrices over a real closed field (exact
    arithmetic; a division by zero, nan in numpy, is 0 here and excluded by the hypotheses of the theorems). Rows are observations and
    classes, as in the code. log, exp, pi and gammaln are parameters. *)
From Verif Require Base.
From Verif Require Import LinAlg.
Set Warnings "-notation-overridden,-ambiguous-paths".
From mathcomp Require Import all_ssreflect all_algebra.
Set Implicit Arguments. Unset Strict Implicit. Unset Printing Implicit Defensive.
Import Order.TTheory GRing.Theory Num.Theory.
Local Open Scope ring_scope.
Notation value_error := Verif.Base.ValueError. Notation type_error := Verif.Base.TypeError. Notation index_error := Verif.Base.IndexError.
Notation assertion_error := Verif.Base.AssertionError.

Section Gbe.
Variable F : rcfType.
Variables (ln expf gammaln : F -> F) (pi : F).

(** utils/math.py:345-361 with the number of classes given; ids are not negative *)
Definition int2onehot {n} (ids : 'I_n -> nat) (K : nat) : res 'M[F]_(n, K) :=
  if [forall i, ids i < K]%N then ok (\matrix_(i, k) (ids i == k)%:R) else err index_error.
(** utils/math.py:108-116 with axis=1; np.max along an empty axis raises ValueError *)
Definition row_max {n K} (r : 'M[F]_(n, K)) (i : 'I_n) : F :=
  if [seq r i k | k <- enum 'I_K] is h :: t then foldl Num.max h t else 0.
Definition softmax {n K} (r : 'M[F]_(n, K)) : res 'M[F]_(n, K) :=
  if K is 0 then err value_error
  else let e : 'M[F]_(n, K) := \matrix_(i, k) expf (r i k - row_max r i) in ok (\matrix_(i, k) (e i k / \sum_l e i l)).

(** the object: linear_gbe.py:23-53; None is python's None. A and b are the attributes that the scores use. *)
Record gbe K d := Obj { g_mu : option 'M[F]_(K, d); g_W : option 'M[F]_d; g_Ab : option ('M[F]_(d, K) * 'rV[F]_K);
  g_beta : option 'rV[F]_K; g_nu : option F }.
(** linear_gbe.py:253-256 *)
Definition compute_Ab {K d} (mu : option 'M[F]_(K, d)) (W : option 'M[F]_d) (old : option ('M[F]_(d, K) * 'rV[F]_K)) :=
  match mu, W with
  | Some mu, Some W => let A := W *m mu^T in Some (A, \row_k (- 2%:R^-1 * \sum_j mu^T j k * A j k))
  | _, _ => old
  end.
Definition make {K d} mu W beta nu : gbe K d := Obj mu W (compute_Ab mu W None) beta nu.

(** linear_gbe.py:92-93. None * array is a TypeError. *)
Definition eval_linear {n K d} (o : gbe K d) (x : 'M[F]_(n, d)) : res 'M[F]_(n, K) :=
  if g_Ab o is Some (A, b) then ok (\matrix_(i, k) ((x *m A) i k + b 0 k)) else err type_error.
Definition quad {n d} (W : 'M[F]_d) (x : 'M[F]_(n, d)) (i : 'I_n) : F := \sum_j (x *m W) i j * x i j.
(** linear_gbe.py:97-102 *)
Definition eval_llk {n K d} (o : gbe K d) (x : 'M[F]_(n, d)) : res 'M[F]_(n, K) :=
  let! logp := eval_linear o x in
  if g_W o is Some W then
    let! ld := logdet_pdmat ln W in
    let K0 := 2%:R^-1 * ld - 2%:R^-1 * d%:R * ln (2%:R * pi) in
    ok (\matrix_(i, k) (logp i k + (K0 + - 2%:R^-1 * quad W x i)))
  else err type_error.
(** linear_gbe.py:106-136 *)
Definition eval_predictive {n K d} (o : gbe K d) (x : 'M[F]_(n, d)) : res 'M[F]_(n, K) :=
  match g_W o, g_nu o, g_beta o with
  | Some W, Some nu, Some beta =>
    let Km := nu^-1 *: W in
    let c := nu + 1 - d%:R in
    let r k := beta 0 k / (beta 0 k + 1) in
    let logg := gammaln ((c + d%:R) / 2%:R) - gammaln (c / 2%:R) - 2%:R^-1 * d%:R * ln (c * pi) in
    let! logK := logdet_pdmat ln Km in
    let logL_div_2 k := 2%:R^-1 * logK + 2%:R^-1 * d%:R * r k in
    let! lin := eval_linear o x in
    let delta2_0 i k := quad W x i - 2%:R * lin i k in
    let delta2_div_c i k := r k * delta2_0 i k / nu in
    let D i k := - 2%:R^-1 * (c + d%:R) * ln (1 + delta2_div_c i k) in
    ok (\matrix_(i, k) (logg + logL_div_2 k + D i k))
  | _, _, _ => err type_error
  end.
(** linear_gbe.py:140-153 *)
Inductive method := ByLinear | ByLlk | ByPredictive.
Definition predict {n K d} (o : gbe K d) (x : 'M[F]_(n, d)) (m : method) (normalize : bool) : res 'M[F]_(n, K) :=
  let! logp := (match m with ByLinear => eval_linear o x | ByLlk => eval_llk o x | ByPredictive => eval_predictive o x end) in
  if normalize then (let! p := softmax logp in ok (map_mx ln p)) else ok logp.

(** the prior of the MAP adaptation, an initialised object of as many classes, and linear_gbe.py:72-79 *)
Record prior K d := Prior { p_mu : 'M[F]_(K, d); p_W : 'M[F]_d; p_beta : 'rV[F]_K; p_nu : F }.
Definition load_prior {K d} (p : prior K d) (prior_beta prior_nu : option F) : prior K d :=
  Prior (p_mu p) (p_W p) (if prior_beta is Some b then const_mx b else p_beta p) (if prior_nu is Some v then K%:R * v else p_nu p).
Record config := Config { update_mu : bool; update_W : bool; balance : bool; prior_beta : option F; prior_nu : option F;
  post_beta : option F; post_nu : option F }.
(** linear_gbe.py:159-231 once p_theta, of K columns, is there *)
Definition weigh {n K} (p_theta : 'M[F]_(n, K)) (w : option 'cV[F]_n) : 'M[F]_(n, K) :=
  if w is Some w then \matrix_(i, k) (w i 0 * p_theta i k) else p_theta.
Definition fit_mu {K d} (cf : config) (o : gbe K d) (pr : option (prior K d)) (N : 'rV[F]_K) (Fx : 'M[F]_(K, d)) :=
  let xbar : 'M[F]_(K, d) := \matrix_(k, j) (Fx k j / N 0 k) in
  if update_mu cf then
    if pr is Some p then
      let alpha k := N 0 k / (N 0 k + p_beta p 0 k) in
      (Some xbar, Some (\matrix_(k, j) ((1 - alpha k) * p_mu p k j + alpha k * xbar k j)), Some (N + p_beta p))
    else (Some xbar, Some xbar, Some N)
  else (g_mu o, g_mu o, g_beta o).
(** the matrix S of linear_gbe.py:197-225 *)
Definition fit_S {n K d} (cf : config) (pr : option (prior K d)) (x : 'M[F]_(n, d)) (pt : 'M[F]_(n, K)) (N : 'rV[F]_K) (xbar : 'M[F]_(K, d))
    : res ('M[F]_d * F) :=
  let nu0 := if pr is Some p then p_nu p else 0 in
  let! S0 := (if pr is Some p then
      let! i := invert_pdmat ln (p_W p) false in
      ok (if balance cf then (K%:R - \sum_k N 0 k / (N 0 k + nu0 / K%:R)) *: p_inv i else nu0 *: p_inv i)
    else ok 0) in
  let S_k k :=
    let delta : 'M[F]_(n, d) := \matrix_(i, j) (x i j - xbar k j) in
    let s := (\matrix_(j, i) (pt i k * delta^T j i)) *m delta in
    let s := if pr is Some p then
        if update_mu cf then
          let alpha := N 0 k / (N 0 k + p_beta p 0 k) in
          let md := row k xbar - row k (p_mu p) in
          s + (N 0 k * (1 - alpha)) *: (md^T *m md)
        else s
      else s in
    if balance cf then (N 0 k + nu0 / K%:R)^-1 *: s else s in
  let Sc := S0 + \sum_k S_k k in
  ok (if balance cf then K%:R^-1 *: Sc else (nu0 + \sum_k N 0 k)^-1 *: Sc, nu0).
Definition fit {n K d} (cf : config) (o : gbe K d) (pr : option (prior K d)) (x : 'M[F]_(n, d)) (p_theta : 'M[F]_(n, K))
    (sample_weight : option 'cV[F]_n) : res (gbe K d) :=
  let pr := if pr is Some p then Some (load_prior p (prior_beta cf) (prior_nu cf)) else None in
  let pt := weigh p_theta sample_weight in
  let N : 'rV[F]_K := \row_k \sum_i pt i k in
  let Fx := pt^T *m x in
  let: (xbar, mu, beta) := fit_mu cf o pr N Fx in
  let! r := (if update_W cf then
      if xbar is Some xbar then
        let! r := fit_S cf pr x pt N xbar in
        let! i := invert_pdmat ln r.1 false in
        ok (Some (p_inv i), Some (\sum_k N 0 k + r.2))
      else err type_error
    else ok (g_W o, g_nu o)) in
  let: (W, nu) := r in
  ok (Obj mu W (compute_Ab mu W (g_Ab o)) (if post_beta cf is Some b then Some (const_mx b) else beta)
    (if post_nu cf is Some v then Some (K%:R * v) else nu)).
(** fit with class_ids: linear_gbe.py:161, 174-175 *)
Definition fit_ids {n K d} (cf : config) (o : gbe K d) (pr : option (prior K d)) (x : 'M[F]_(n, d)) (ids : 'I_n -> nat)
    (sample_weight : option 'cV[F]_n) : res (gbe K d) :=
  let! p_theta := int2onehot ids K in fit cf o pr x p_theta sample_weight.
End Gbe.
