(** Model of the PLDA models with a low rank class factor of hyperion/pdfs/plda: splda.py (x = mu + yV + noise with precision W) and plda.py
    (x = mu + yV + zU + noise with diagonal precision D), on mathcomp matrices over a real closed field (exact arithmetic). Rows are
    observations. The logarithm and log(2 pi) are parameters. The model is initialised (is_init). llr_NvsM_book of both classes is not
    modelled: it returns None (splda.py:323-378, plda.py:466-524), and plda.py:473-474 reads an attribute that does not exist. *)
From Verif Require Base.
From Verif Require Import LinAlg LinTrans Frplda.
Set Warnings "-notation-overridden,-ambiguous-paths".
From mathcomp Require Import all_ssreflect all_algebra.
Set Implicit Arguments. Unset Strict Implicit. Unset Printing Implicit Defensive.
Import Order.TTheory GRing.Theory Num.Theory.
Local Open Scope ring_scope.

Section Splda.
Variable F : rcfType.
Variable ln : F -> F.
Variable ln2pi : F.
Notation half := (Frplda.half F).
(** ** The loop shared by both classes: splda.py:78-159, plda.py:115-196 *)
Record spost M e := SPost { spy : 'M[F]_(M, e); spSigma : 'I_M -> 'M[F]_e; splogpy : 'rV[F]_M; spRy : 'M[F]_e; spPy : 'M[F]_e }.
Definition lr_step {M e} (VV : 'M[F]_e) (gamma : 'M[F]_(M, e)) (g : pred 'I_M * F) (st : spost M e) : res (spost M e) :=
  let: (i, N_i) := g in
  let L_i := 1%:M + N_i *: VV in
  let! r := invert_pdmat ln L_i true in
  let y : 'M[F]_(M, e) := \matrix_(a, j) (if i a then p_right r (row a gamma) 0 j else spy st a j) in
  ok (SPost y (fun a => if i a then p_inv r else spSigma st a)
    (\row_a (if i a then splogpy st 0 a + half * (p_logdet r - \sum_j y a j * gamma a j) else splogpy st 0 a))
    (spRy st + (N_i * #|i|%:R) *: p_inv r) (spPy st + #|i|%:R *: p_inv r)).
Fixpoint lr_loop {M e} (VV : 'M[F]_e) (gamma : 'M[F]_(M, e)) (gs : seq (pred 'I_M * F)) (st : spost M e) : res (spost M e) :=
  if gs is g :: gs' then (let! st' := lr_step VV gamma g st in lr_loop VV gamma gs' st') else ok st.
Definition lr_posterior {M e d} (mu : 'rV[F]_d) (WV : 'M[F]_(d, e)) (VV : 'M[F]_e) (D : stats F M d) (N_is_int : bool) : res (spost M e) :=
  let Fc := sF D - bcast M mu in
  lr_loop VV (Fc *m WV) (groups (sN D) N_is_int) (SPost 0 (fun _ => 0) (const_mx (- (half * e%:R * ln2pi))) 0 0).
(** splda.py:283-320, plda.py:424-462 *)
Definition lr_llr_1vs1 {n1 n2 e d} (mu : 'rV[F]_d) (WV : 'M[F]_(d, e)) (VV : 'M[F]_e) (x1 : 'M[F]_(n1, d)) (x2 : 'M[F]_(n2, d)) : res 'M[F]_(n1, n2) :=
  let! non := chol_right ln (1%:M + VV) in
  let! tar := chol_right ln (1%:M + 2%:R *: VV) in
  let VWF1 := (x1 - bcast n1 mu) *m WV in let VWF2 := (x2 - bcast n2 mu) *m WV in
  let! gn1 := non.1 _ VWF1 in
  let! gn2 := non.1 _ VWF2 in
  let! gt1 := tar.1 _ VWF1 in
  let! gt2 := tar.1 _ VWF2 in
  ok (\matrix_(i, j) (half * (2%:R * (gt1 *m gt2^T) i j + (sqsum gt1 i - sqsum gn1 i + sqsum gt2 j - sqsum gn2 j) + (2%:R * non.2 - tar.2)))).

(** ** SPLDA: splda.py *)
Record splda e d := MkSplda { s_mu : 'rV[F]_d; s_V : 'M[F]_(e, d); s_W : 'M[F]_d }.
(** splda.py:78-159 *)
Definition s_compute_py_g_x {M e d} (p : splda e d) (D : stats F M d) (N_is_int : bool) : res (spost M e) :=
  let WV := s_W p *m (s_V p)^T in lr_posterior (s_mu p) WV (s_V p *m WV) D N_is_int.
(** splda.py:283-320 *)
Definition s_llr_1vs1 {n1 n2 e d} (p : splda e d) (x1 : 'M[F]_(n1, d)) (x2 : 'M[F]_(n2, d)) : res 'M[F]_(n1, n2) :=
  let WV := s_W p *m (s_V p)^T in lr_llr_1vs1 (s_mu p) WV (s_V p *m WV) x1 x2.
(** splda.py:162-182 *)
Record sstats e d := SStats { tN : F; tM : F; tF : 'rV[F]_d; tS : 'M[F]_d; tlogpy : F; ty : 'rV[F]_e; tRy1 : 'rV[F]_e; tRy : 'M[F]_e;
  tCy : 'M[F]_(d, e); tPy : 'M[F]_e }.
Definition s_Estep {M e d} (p : splda e d) (D : stats F M d) (N_is_int : bool) : res (sstats e d) :=
  let! r := s_compute_py_g_x p D N_is_int in
  let y := spy r in
  let Niy : 'M[F]_(M, e) := \matrix_(i, j) (y i j * sN D 0 i) in
  ok (SStats (\sum_i sN D 0 i) M%:R (\sum_i row i (sF D)) (sS D) (\sum_i splogpy r 0 i) (\sum_i row i y) (\sum_i row i Niy)
    (spRy r + Niy^T *m y) ((sF D)^T *m y) (spPy r + y^T *m y)).
(** splda.py:185-197 *)
Definition s_elbo {e d} (p : splda e d) (s : sstats e d) : res F :=
  let! logW := logdet_pdmat ln (s_W p) in
  let Fmu := (tF s)^T *m s_mu p in
  let Shat := tS s - Fmu - Fmu^T + tN s *: ((s_mu p)^T *m s_mu p) in
  let logpx_y := half * (- (tN s * d%:R * ln2pi) + tN s * logW - inner (s_W p) Shat) in
  let logpy := - (half * tM s * e%:R * ln2pi) in
  ok (logpx_y + logpy - tlogpy s).
(** splda.py:200-233 *)
Record sconfig := SConfig { u_mu : bool; u_V : bool; u_W : bool; full_W : bool }.
Definition s_MstepML {e d} (cf : sconfig) (p : splda e d) (s : sstats e d) : res (splda e d) :=
  let Rytilde : 'M[F]_(e + 1) := block_mx (tRy s) (tRy1 s)^T (tRy1 s) (tN s)%:M in
  let Cytilde : 'M[F]_(d, e + 1) := row_mx (tCy s) (tF s)^T in
  let mu := if u_mu cf && ~~ u_V cf then (tN s)^-1 *: (tF s - tRy1 s *m s_V p) else s_mu p in
  let! V := (if ~~ u_mu cf && u_V cf then let! r := invert_pdmat ln (tRy s) false in ok (p_left r ((tCy s)^T - (tRy1 s)^T *m mu)) else ok (s_V p)) in
  let! q := (if u_mu cf && u_V cf then
      let! r := invert_pdmat ln Rytilde false in
      let Vtilde := p_left r Cytilde^T in ok (usubmx Vtilde, dsubmx Vtilde)
    else ok (V, mu)) in
  let: (V, mu) := q in
  let! w := (if u_W cf then
      let iW := if u_mu cf && u_V cf then (tN s)^-1 *: (tS s - tCy s *m V - (tF s)^T *m mu)
        else let Vtilde := col_mx V mu in let CVt := Cytilde *m Vtilde in
          (tN s)^-1 *: (tS s - CVt - CVt^T + Vtilde^T *m Rytilde *m Vtilde) in
      if full_W cf then let! r := invert_pdmat ln iW false in ok (p_inv r)
      else ok (diag_mx (\row_j (iW j j)^-1))
    else ok (s_W p)) in
  ok (MkSplda mu V w).
(** splda.py:236-246 *)
Definition s_MstepMD {e d} (cf : sconfig) (p : splda e d) (s : sstats e d) : res (splda e d) :=
  let mu_y := (tM s)^-1 *: ty s in
  let mu := if u_mu cf then s_mu p + mu_y *m s_V p else s_mu p in
  let! V := (if u_V cf then
      let Cov_y := (tM s)^-1 *: tPy s - mu_y^T *m mu_y in
      let! R := cholesky Cov_y in ok (R *m s_V p)
    else ok (s_V p)) in
  ok (MkSplda mu V (s_W p)).
(** plda_base.py:42-88 with this class; [md] tells whether the minimum divergence step is done in each epoch (ml_md, md_epochs) *)
Fixpoint s_fit_loop {M e d} (cf : sconfig) (use_ml : bool) (md : seq bool) (D : stats F M d) (N_is_int : bool) (p : splda e d) : res (splda e d * seq F) :=
  if md is b :: md' then
    let! s := s_Estep p D N_is_int in
    let! v := s_elbo p s in
    let! p1 := (if use_ml then s_MstepML cf p s else ok p) in
    let! p2 := (if b then s_MstepMD cf p1 s else ok p1) in
    let! r := s_fit_loop cf use_ml md' D N_is_int p2 in
    ok (r.1, v :: r.2)
  else ok (p, [::]).
(** splda.py:383-397: the samples from the numbers drawn *)
Definition s_sample {C K e d} (p : splda e d) (z : 'I_C -> 'I_K -> 'rV[F]_d) (y : 'I_C -> 'rV[F]_e) : res ('I_C -> 'I_K -> 'rV[F]_d) :=
  let! sw := invert_pdmat ln (s_W p) false in
  let! chol_Sw := cholesky (p_inv sw) in
  ok (fun c k => (y c *m s_V p + s_mu p) + z c k *m chol_Sw).

(** ** PLDA: plda.py *)
Record gplda e f d := GPlda { g_mu : 'rV[F]_d; g_V : 'M[F]_(e, d); g_U : 'M[F]_(f, d); g_D : 'rV[F]_d }.
(** plda.py:71-82; V*D scales the columns *)
Record aux e d := Aux { a_W : 'M[F]_d; a_VW : 'M[F]_(d, e); a_VWV : 'M[F]_e; a_logLz : F }.
Definition compute_aux {e f d} (p : gplda e f d) : res (aux e d) :=
  let DV := g_V p *m diag_mx (g_D p) in
  let DU := g_U p *m diag_mx (g_D p) in
  let J := g_V p *m DU^T in
  let Lz := 1%:M + DU *m (g_U p)^T in
  let! r := invert_pdmat ln Lz true in
  let DUiLz := p_right r DU^T in
  let VW := DV^T - DUiLz *m J^T in
  ok (Aux (diag_mx (g_D p) - DUiLz *m DU) VW (g_V p *m VW) (p_logdet r)).
(** plda.py:115-196 *)
Definition g_compute_py_g_x {M e f d} (p : gplda e f d) (D : stats F M d) (N_is_int : bool) : res (spost M e) :=
  let! a := compute_aux p in lr_posterior (g_mu p) (a_VW a) (a_VWV a) D N_is_int.
(** plda.py:424-462 *)
Definition g_llr_1vs1 {n1 n2 e f d} (p : gplda e f d) (x1 : 'M[F]_(n1, d)) (x2 : 'M[F]_(n2, d)) : res 'M[F]_(n1, n2) :=
  let! a := compute_aux p in lr_llr_1vs1 (g_mu p) (a_VW a) (a_VWV a) x1 x2.
(** plda.py:247-260 with the statistics N, M, F_tot, S, logpy_acc of the E step (plda.py:200-243) *)
Definition g_elbo {M e f d} (p : gplda e f d) (D : stats F M d) (N_is_int : bool) : res F :=
  let! a := compute_aux p in
  let! r := g_compute_py_g_x p D N_is_int in
  let N := \sum_i sN D 0 i in
  let Fmu := (\sum_i row i (sF D))^T *m g_mu p in
  let Shat := sS D - Fmu - Fmu^T + N *: ((g_mu p)^T *m g_mu p) in
  let logD := \sum_j ln (g_D p 0 j) in
  ok (half * (- (N * d%:R * ln2pi) + N * (logD - a_logLz a) - inner (a_W a) Shat) - half * M%:R * e%:R * ln2pi - \sum_i splogpy r 0 i).
(** plda.py:529-544: the samples from the numbers drawn; z1 is divided by D *)
Definition g_sample {C K e f d} (p : gplda e f d) (z1 : 'I_C -> 'I_K -> 'rV[F]_d) (z2 : 'I_C -> 'I_K -> 'rV[F]_f) (y : 'I_C -> 'rV[F]_e) : 'I_C -> 'I_K -> 'rV[F]_d :=
  fun c k => (y c *m g_V p + g_mu p) + (\row_j (z1 c k 0 j / g_D p 0 j)) + z2 c k *m g_U p.
(** plda.py:414-420 *)
Definition g_log_probx_g_yz {e f d} (p : gplda e f d) (x : 'rV[F]_d) (y : 'rV[F]_e) (z : 'rV[F]_f) : F :=
  let delta := x - g_mu p - y *m g_V p - z *m g_U p in
  half * (- (d%:R * ln2pi) + \sum_j ln (g_D p 0 j) - \sum_j g_D p 0 j * delta 0 j ^+ 2).
(** plda.py:403-410 for a single observation (one-dimensional arrays, for which mult_W(delta) is the same from both sides) *)
Definition g_log_probx_g_y {e f d} (p : gplda e f d) (x : 'rV[F]_d) (y : 'rV[F]_e) : res F :=
  let iW := diag_mx (\row_j (g_D p 0 j)^-1) + (g_U p)^T *m g_U p in
  let! r := invert_pdmat ln iW true in
  let delta := x - g_mu p - y *m g_V p in
  ok (half * (- (d%:R * ln2pi) - p_logdet r - (p_right r delta *m delta^T) 0 0)).
End Splda.
