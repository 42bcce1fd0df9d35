(** Model of hyperion/metrics/utils.py opt_loglr and hyperion/metrics/cllr.py, with real logarithms. *)
From Coq Require Import QArith Reals Qreals.
From Verif Require Export Metrics.
Open Scope list_scope.

(** numpy floats as far as they occur here: log(0) is -inf, -log(0) is +inf *)
Inductive xreal := NInf | Fin (r : R) | PInf.
(** utils.py:149 np.log(p_opt) - np.log(1-p_opt), for 0 <= p <= 1 *)
Definition xlog_odds (p : Q) : xreal :=
  if Qeq_bool p 0 then NInf else if Qeq_bool p 1 then PInf else Fin (ln (Q2R p) - ln (1 - Q2R p)).
Definition xplus (x : xreal) (r : R) : xreal := match x with NInf => NInf | Fin a => Fin (a + r) | PInf => PInf end.

(** utils.py:106-158 opt_loglr; [laplace] is method == 'laplace'. Real arithmetic stands for float64. With no
    non-targets ntar/nnon raises ZeroDivisionError; with no targets numpy gives infinities, not modelled. *)
Definition opt_loglr {S} `{Ord S} (laplace : bool) (tar non : list S) : res (list xreal * list xreal) :=
  let nt := len tar in let nn := len non in let n := (nt + nn)%nat in
  let sort_idx := argsort (tar ++ non) in
  P <- gather (repeat 1%Q nt ++ repeat 0%Q nn) sort_idx ;;
  let P := if laplace then ([1; 0] ++ P ++ [1; 0])%Q else P in
  '(g, _, _) <- pavx P ;;
  let p_opt := if laplace then firstn (len g - 4) (skipn 2 g) else g in
  if Nat.eqb nn 0 then Err ZeroDivisionError else
  let llr := zip_with (fun k p => xplus (xplus (xlog_odds p) (- ln (INR nt / INR nn))) (/ 1000000 * INR k / INR n)) (seq 0 n) p_opt in
  out <- set_items llr (map Z.of_nat sort_idx) llr ;;
  Ok (firstn nt out, skipn nt out).

(** utils/math.py:143-152 neglogsigmoid: below -100 the exact value log(1+exp(-x)) is replaced by -x *)
Definition neglogsigmoid (x : R) : R := if Rlt_dec x (-100) then (- x)%R else ln (1 + exp (- x)).
Definition rsum (l : list R) : R := fold_right Rplus 0%R l.
Definition rmean (l : list R) : R := (rsum l / INR (len l))%R.
(** cllr.py:15-30 compute_cllr, for non-empty lists *)
Definition compute_cllr (tar non : list R) : R :=
  ((rmean (map neglogsigmoid tar) / ln 2 + rmean (map neglogsigmoid non) / ln 2) / 2)%R.
