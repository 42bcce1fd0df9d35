(** Model of Normal, hyperion/pdfs/core/normal.py, with exp_family.py:36-156, and of GMM, hyperion/pdfs/mixtures/gmm.py, with
    exp_family_mixture.py:48-208 and 440-445: Gaussians and mixtures with full precision matrices, on mathcomp matrices over a real closed
    field (exact arithmetic), with an abstract logarithm and exponential. The conversions between symmetric matrices and vectors are those of
    SymMat.v, the linear algebra that of LinAlg.v. A data matrix has a sample in each row. Plotting and sampling are not modelled. *)
From Verif Require Base SymMat.
From Verif Require Import LinAlg.
Set Warnings "-notation-overridden,-ambiguous-paths".
From mathcomp Require Import all_ssreflect all_algebra.
Set Implicit Arguments. Unset Strict Implicit. Unset Printing Implicit Defensive.
Import Order.TTheory GRing.Theory Num.Theory.
Local Open Scope ring_scope.
Notation value_error := Verif.Base.ValueError. Notation name_error := Verif.Base.NameError. Notation assertion_error := Verif.Base.AssertionError.

Section NormalFull.
Variable F : rcfType.
Variable ln ex : F -> F.
Variable c : F.                      (* np.log(2*np.pi) *)

(** ** Vectors of symmetric matrices (utils/math.py:190-236, SymMat.v) *)
Definition at2 {n} (A : 'M[F]_n) (i j : nat) : F :=
  if insub i is Some i' then if insub j is Some j' then A i' j' else 0 else 0.
Definition sq {n} (A : 'M[F]_n) : SymMat.sqmat F := SymMat.mk_sqmat n (at2 A).
Definition s2v {n} (A : 'M[F]_n) (df : option F) : seq F := SymMat.symmat2vec *%R (sq A) false df.
Definition v2s n (v : seq F) (df : option F) : res 'M[F]_n :=
  let! B := SymMat.vec2symmat 0 *%R v false df in
  if SymMat.m_dim B == n then ok (\matrix_(i, j) SymMat.m_at B i j) else err value_error.

(** ** Sufficient statistics *)
(** stack_suff_stats, unstack_suff_stats, normal.py:89-99: np.hstack and slices at x_dim *)
Definition stack {n} (f : 'rV[F]_n) (s : seq F) : seq F := [seq f 0 i | i <- enum 'I_n] ++ s.
Definition unstack n (st : seq F) : 'rV[F]_n * seq F := (\row_(i < n) nth 0 st i, drop n st).
(** np.inner of two vectors *)
Definition inner (a b : seq F) : F := \sum_(p <- zip a b) p.1 * p.2.
(** compute_suff_stats, normal.py:317-326: the loops over i and j >= i fill the columns in the order of triu *)
Definition suff {n} (x : 'rV[F]_n) : seq F := stack x [seq at2 (x^T *m x) p.1 p.2 | p <- SymMat.triu n].
(** sum of weighted rows of a table of statistics of width D, exp_family.py:81-90; the code also scales the rows of u_x in place *)
Definition sum_stats {m} (D : nat) (u : 'I_m -> seq F) (w : 'I_m -> F) : seq F := mkseq (fun k => \sum_i w i * nth 0 (u i) k) D.
Definition dim_u n : nat := (n + (n * n.+1)./2)%N.
Definition wt {m} (w : option 'rV[F]_m) (i : 'I_m) : F := if w is Some w then w 0 i else 1.
(** accum_suff_stats, normal.py:103-116; batch_size is not used *)
Definition accum {m n} (X : 'M[F]_(m, n)) (w : option 'rV[F]_m) : F * seq F :=
  match w with
  | None => (m%:R, stack (\sum_i row i X) (s2v (X^T *m X) None))
  | Some w => let wx := \matrix_(i, j) (w 0 i * X i j) in (\sum_i w 0 i, stack (\sum_i row i wx) (s2v (wx^T *m X) None))
  end.
Definition accum_u {m} (D : nat) (u : 'I_m -> seq F) (w : option 'rV[F]_m) : F * seq F :=
  (if w is Some w then \sum_i w 0 i else m%:R, sum_stats D u (wt w)).

(** ** Parameters *)
(** compute_eta, normal.py:245-248 *)
Definition compute_eta {n} (mu : 'rV[F]_n) (L : 'M[F]_n) : seq F := stack (mu *m L) [seq - z | z <- s2v L (Some 2%:R^-1)].
(** compute_x_dim_from_eta, normal.py:253-256: 0.5*(-3+sqrt(9+8 n)) must be an integer *)
Definition x_dim_of_eta (len : nat) : res nat :=
  let s := Nat.sqrt (9 + 8 * len) in
  if ((s * s == 9 + 8 * len) && ~~ odd (s - 3))%N then ok ((s - 3)./2) else err assertion_error.
(** compute_std, normal.py:261-268 *)
Definition compute_std n (eta : seq F) : res ('rV[F]_n * 'M[F]_n) :=
  let: (eta1, e2) := unstack n eta in
  let! M := v2s n e2 (Some 2%:R) in
  let eta2 := 2%:R^-1 *: M in
  let! p := invert_pdmat ln (- eta2) true in
  ok (2%:R^-1 *: p_right p eta1, - (2%:R *: eta2)).
(** compute_A_nat, normal.py:273-281 *)
Definition A_nat n (eta : seq F) : res F :=
  let: (eta1, e2) := unstack n eta in
  let! M := v2s n e2 (Some 2%:R) in
  let eta2 := 2%:R^-1 *: M in
  let! p := invert_pdmat ln (- eta2) true in
  let r1 := 2%:R^-1 * n%:R * c in
  let r2 := 4%:R^-1 * (p_right p eta1 *m eta1^T) 0 0 in
  let r3 := - (2%:R^-1 * n%:R * ln 2%:R) - 2%:R^-1 * p_logdet p in
  ok (r1 + r2 + r3).
(** compute_A_std, normal.py:286-291 *)
Definition A_std {n} (mu : 'rV[F]_n) (L : 'M[F]_n) : res F :=
  let! ld := logdet_pdmat ln L in
  ok (2%:R^-1 * n%:R * c + - (2%:R^-1 * ld) + 2%:R^-1 * ((mu *m L) *m mu^T) 0 0).

(** ** The object *)
(** mu and Lambda with the natural parameters of _compute_nat_params, normal.py:295-304 *)
Record normal n := MkN { n_mu : 'rV[F]_n; n_L : 'M[F]_n; n_eta : seq F; n_A : F }.
Definition mk_normal {n} (mu : 'rV[F]_n) (L : 'M[F]_n) : res (normal n) :=
  let! a := A_std mu L in ok (MkN mu L (compute_eta mu L) a).
(** Normal(eta=eta), normal.py:41-49 *)
Definition mk_normal_nat n (eta : seq F) : res (normal n) :=
  if size eta == dim_u n then
    let! a := A_nat n eta in let! p := compute_std n eta in ok (MkN p.1 p.2 eta a)
  else err assertion_error.
(** log_prob_nat, exp_family.py:152-156 *)
Definition log_prob_nat {n} (g : normal n) (x : 'rV[F]_n) : F := inner (suff x) (n_eta g) - n_A g.
(** log_prob_std, normal.py:157-172; cholLambda is the transpose of the Cholesky factor, normal.py:64-70 *)
Definition log_prob_std {n} (g : normal n) (x : 'rV[F]_n) : res F :=
  let! p := invert_pdmat ln (n_L g) false in
  let y := (x - n_mu g) *m (p_chol p)^T in
  ok (2%:R^-1 * p_logdet p - 2%:R^-1 * n%:R * c - 2%:R^-1 * \sum_j (y 0 j) ^+ 2).
(** elbo of the statistics, exp_family.py:134-141 *)
Definition elbo {n} (g : normal n) (N : F) (u : seq F) : F := inner u (n_eta g) - N * n_A g.
(** Mstep, normal.py:136-153 *)
Definition mstep {n} (update_mu update_L : bool) (g : normal n) (N : F) (u : seq F) : res (normal n) :=
  let: (f, s) := unstack n u in
  let mu := if update_mu then N^-1 *: f else n_mu g in
  let! L := (if update_L then
               let! Sm := v2s n [seq z / N | z <- s] None in
               let! p := invert_pdmat ln (Sm - mu^T *m mu) false in ok (p_inv p)
             else ok (n_L g)) in
  mk_normal mu L.
(** fit, exp_family.py:36-51, without validation data: the new object and [elbo, elbo/N] *)
Definition fit {m n} (update_mu update_L : bool) (g : normal n) (X : 'M[F]_(m, n)) (w : option 'rV[F]_m) : res (normal n * (F * F)) :=
  let: (N, u) := accum X w in
  let! g := mstep update_mu update_L g N u in
  ok (g, (elbo g N u, elbo g N u / N)).
(** norm_suff_stats, normal.py:120-132: order 2 uses the undefined vec2symat *)
Definition norm_stats {n} (g : normal n) (N : F) (u : seq F) (order2 : bool) : res (F * 'rV[F]_n) :=
  let: (f, s) := unstack n u in
  let! p := invert_pdmat ln (n_L g) false in
  let f_norm := (f - N *: n_mu g) *m ((p_chol p)^T)^T in
  if order2 then err name_error else ok (N, f_norm).
(** load_params, normal.py:208-216: a classmethod that uses self *)
Definition load_params {n} (saved : 'rV[F]_n * 'M[F]_n) : res (normal n) := err name_error.

(** ** GMM *)
Variable e15 e20 : F.                (* 1e-15 and 1e-20 *)
Variable svd : forall n, 'M[F]_n -> 'M[F]_n * 'rV[F]_n.   (* numpy's svd in fullcov_varfloor *)
(** a loop over the components: the first error, or all the results *)
Definition err_of {T} (r : res T) : option Verif.Base.exn := if r is Verif.Base.Err e then Some e else None.
Definition val_of {T} (d : T) (r : res T) : T := if r is Verif.Base.Ok x then x else d.
Definition mapR {K} {T} (d : T) (f : 'I_K -> res T) : res ('I_K -> T) :=
  if ohead (pmap (fun k => err_of (f k)) (enum 'I_K)) is Some e then err e else ok (fun k => val_of d (f k)).
(** the parameters, with the natural parameters of _compute_nat_params, gmm.py:403-405: A is computed from eta *)
Record gmm K n := MkG { g_pi : 'I_K -> F; g_mu : 'I_K -> 'rV[F]_n; g_L : 'I_K -> 'M[F]_n; g_eta : 'I_K -> seq F; g_A : 'I_K -> F }.
Definition mk_gmm {K n} (pi : 'I_K -> F) (mu : 'I_K -> 'rV[F]_n) (L : 'I_K -> 'M[F]_n) : res (gmm K n) :=
  let eta k := compute_eta (mu k) (L k) in
  let! a := mapR 0 (fun k => A_nat n (eta k)) in ok (MkG pi mu L eta a).
(** log_pi, exp_family_mixture.py:48-51 *)
Definition log_pi {K n} (g : gmm K n) (k : 'I_K) : F := ln (g_pi g k + e15).
(** np.max, softmax and logsumexp, utils/math.py:108-126 *)
Definition vmax {K} (l : 'I_K -> F) : F := let s := [seq l k | k <- enum 'I_K] in foldl Num.max (head 0 s) (behead s).
Definition softmax {K} (l : 'I_K -> F) (k : 'I_K) : F := ex (l k - vmax l) / \sum_j ex (l j - vmax l).
Definition logsumexp {K} (l : 'I_K -> F) : F := ln (\sum_j ex (l j - vmax l) + e20) + vmax l.
(** the components' joint log probabilities, exp_family_mixture.py:154-158 and 440-445 *)
Definition logr {K n} (g : gmm K n) (x : 'rV[F]_n) (k : 'I_K) : F := inner (suff x) (g_eta g k) - g_A g k + log_pi g k.
Definition compute_pz {K n} (g : gmm K n) (x : 'rV[F]_n) : 'I_K -> F := softmax (logr g x).
Definition g_log_prob_nat {K n} (g : gmm K n) (x : 'rV[F]_n) : F := logsumexp (logr g x).
(** log_prob_std, gmm.py:220-227 *)
Definition g_log_prob_std {K n} (g : gmm K n) (x : 'rV[F]_n) : res F :=
  let! l := mapR 0 (fun k =>
    let! p := invert_pdmat ln (g_L g k) false in
    let y := (x - g_mu g k) *m (p_chol p)^T in
    ok (log_pi g k + 2%:R^-1 * p_logdet p - 2%:R^-1 * n%:R * c - 2%:R^-1 * \sum_j (y 0 j) ^+ 2)) in
  ok (logsumexp l).
(** _accum_suff_stats_1batch, exp_family_mixture.py:180-190 *)
Definition estep {m K n} (g : gmm K n) (X : 'M[F]_(m, n)) (w : option 'rV[F]_m) : ('I_K -> F) * ('I_K -> seq F) :=
  let z i k := (if w is Some w then compute_pz g (row i X) k * w 0 i else compute_pz g (row i X) k) in
  (fun k => \sum_i z i k, fun k => sum_stats (dim_u n) (fun i => suff (row i X)) (fun i => z i k)).
(** _accum_suff_stats_nbatches, exp_family_mixture.py:194-208: the first batch, then the sums with the next ones *)
Definition add_stats {K} (a b : ('I_K -> F) * ('I_K -> seq F)) : ('I_K -> F) * ('I_K -> seq F) :=
  (fun k => a.1 k + b.1 k, fun k => [seq p.1 + p.2 | p <- zip (a.2 k) (b.2 k)]).
(** Mstep, gmm.py:170-191; pi stays as it is, whatever update_pi *)
Definition g_mstep {K n} (update_mu update_L : bool) (var_floor : F) (g : gmm K n) (N : 'I_K -> F) (U : 'I_K -> seq F) : res (gmm K n) :=
  let f k := (unstack n (U k)).1 in let s k := (unstack n (U k)).2 in
  let mu := if update_mu then fun k => (N k)^-1 *: f k else g_mu g in
  let! L := (if update_L then
      let! C := mapR 0 (fun k => let! Sm := v2s n [seq z / N k | z <- s k] None in ok (Sm - (mu k)^T *m mu k)) in
      let! R := cholesky (var_floor *: (K%:R^-1 *: \sum_k C k)) in
      mapR 0 (fun k =>
        let! X := fullcov_varfloor (@svd n) (C k) R true false in
        let! p := invert_pdmat ln X false in ok (p_inv p))
    else ok (g_L g)) in
  mk_gmm (g_pi g) mu L.
(** one epoch of fit without batches, exp_family_mixture.py:60-87 *)
Definition g_epoch {m K n} (update_mu update_L : bool) (var_floor : F) (X : 'M[F]_(m, n)) (w : option 'rV[F]_m) (g : gmm K n) : res (gmm K n) :=
  let: (N, U) := estep g X w in g_mstep update_mu update_L var_floor g N U.
(** get_config, gmm.py:249-254, names the undefined DiagGMM; split_comp ends with it (gmm.py:195-216) *)
Definition g_get_config {K n} (g : gmm K n) : res unit := err name_error.
End NormalFull.
