(** Model of the full-rank PLDA of hyperion/pdfs/plda (frplda.py and the shared part plda_base.py) on mathcomp matrices over a real closed
    field (exact arithmetic). Rows are observations, as in the code. The logarithm and the number log(2 pi) are parameters.
    Class ids are natural numbers. The model is initialised (is_init). *)
From Verif Require Base.
From Verif Require Import LinAlg LinTrans.
Set Warnings "-notation-overridden,-ambiguous-paths".
From mathcomp Require Import all_ssreflect all_algebra.
Set Implicit Arguments. Unset Strict Implicit. Unset Printing Implicit Defensive.
Import Order.TTheory GRing.Theory Num.Theory.
Local Open Scope ring_scope.
Notation value_error := Verif.Base.ValueError.

Section Frplda.
Variable F : rcfType.
Variable ln : F -> F.
Variable ln2pi : F.

(** ** Statistics: plda_base.py:223-250 *)
Record stats M d := Stats { sN : 'rV[F]_M; sF : 'M[F]_(M, d); sS : 'M[F]_d }.
(** plda_base.py:223-232. [p_theta *= scal_factor] works in place: the second result is the caller's p_theta afterwards. *)
Definition compute_stats_soft {n M d} (x : 'M[F]_(n, d)) (p_theta : 'M[F]_(n, M)) (sample_weight : option 'cV[F]_n) (scal_factor : option F)
    : stats M d * 'M[F]_(n, M) :=
  let p1 := if sample_weight is Some w then \matrix_(i, c) (w i 0 * p_theta i c) else p_theta in
  let p2 := if scal_factor is Some s then s *: p1 else p1 in
  let wx : 'M[F]_(n, d) := \matrix_(i, j) ((\sum_c p2 i c) * x i j) in
  (Stats (\row_c \sum_i p2 i c) (p2^T *m x) (x^T *m wx),
   if sample_weight is None then p2 else p_theta).
(** plda_base.py:236-241. np.max of an empty array raises ValueError. *)
Definition num_classes {n} (ids : 'I_n -> nat) : nat := (\max_i ids i).+1.
Definition hard_theta {n} (ids : 'I_n -> nat) : 'M[F]_(n, num_classes ids) := \matrix_(i, c) (ids i == c)%:R.
Definition compute_stats_hard {n d} (x : 'M[F]_(n, d)) (ids : 'I_n -> nat) (sample_weight : option 'cV[F]_n) (scal_factor : option F)
    : res (stats (num_classes ids) d) :=
  if n is 0 then err value_error else ok (compute_stats_soft x (hard_theta ids) sample_weight scal_factor).1.
(** plda_base.py:245-250 *)
Definition center_stats {M d} (D : stats M d) (mu : 'rV[F]_d) : stats M d :=
  let Fc := sF D - (sN D)^T *m mu in
  let Fmu := (\row_j \sum_c sF D c j)^T *m mu in
  Stats (sN D) Fc (sS D - Fmu - Fmu^T + (\sum_c sN D 0 c) *: (mu^T *m mu)).

(** ** The model: frplda.py:21-49 *)
Record plda d := Plda { mu : 'rV[F]_d; B : 'M[F]_d; W : 'M[F]_d }.
Record config := Config { update_mu : bool; update_B : bool; update_W : bool; fullcov_W : bool }.
Definition half : F := 2%:R^-1.
Definition bcast {d} n (v : 'rV[F]_d) : 'M[F]_(n, d) := \matrix_(i, j) v 0 j.
(** frplda.py:53-78 *)
Definition initialize {M d} (D : stats M d) : res (plda d) :=
  let y : 'M[F]_(M, d) := \matrix_(i, j) (sF D i j / sN D 0 i) in
  let Fy := (sF D)^T *m y in
  let C := sS D - Fy - Fy^T + \sum_i sN D 0 i *: ((row i y)^T *m row i y) in
  let C := half *: (C + C^T) in
  let m := M%:R^-1 *: \sum_i row i y in
  let iB := M%:R^-1 *: (y^T *m y) - m^T *m m in
  let iW := (\sum_i sN D 0 i)^-1 *: C in
  let! b := invert_pdmat ln iB false in
  let! w := invert_pdmat ln iW false in
  ok (Plda m (p_inv b) (p_inv w)).

(** ** Posteriors: frplda.py:82-161 *)
(** the groups of classes the loop of frplda.py:82-161 goes through: one per different count if all the counts are integers, one per class
    otherwise; with the count *)
Definition np_unique (s : seq F) : seq F := sort <=%R (undup s).
Definition groups {M} (N : 'rV[F]_M) (N_is_int : bool) : seq (pred 'I_M * F) :=
  if N_is_int then [seq ((fun i => N 0 i == k), k) | k <- np_unique [seq N 0 i | i <- enum 'I_M]]
  else [seq ((fun a => a == i), N 0 i) | i <- enum 'I_M].
Record post M d := Post { py : 'M[F]_(M, d); pSigma : 'I_M -> 'M[F]_d; plogpy : 'rV[F]_M; pPy : 'M[F]_d }.
Definition py_step {M d} (p : plda d) (gamma : 'M[F]_(M, d)) (g : pred 'I_M * F) (st : post M d) : res (post M d) :=
  let: (i, N_i) := g in
  let L_i := B p + N_i *: W p in
  let! r := invert_pdmat ln L_i true in
  let y : 'M[F]_(M, d) := \matrix_(a, j) (if i a then p_right r (row a gamma) 0 j else py st a j) in
  ok (Post y (fun a => if i a then p_inv r else pSigma st a)
    (\row_a (if i a then plogpy st 0 a + half * (p_logdet r - \sum_j y a j * gamma a j) else plogpy st 0 a))
    (pPy st + #|i|%:R *: p_inv r)).
Fixpoint py_loop {M d} (p : plda d) (gamma : 'M[F]_(M, d)) (gs : seq (pred 'I_M * F)) (st : post M d) : res (post M d) :=
  if gs is g :: gs' then (let! st' := py_step p gamma g st in py_loop p gamma gs' st') else ok st.
(** [N_is_int] is the result of the test of frplda.py:82-161. Ry is zero here; it is filled by the E step. *)
Definition compute_py_g_x {M d} (p : plda d) (D : stats M d) (N_is_int : bool) : res (post M d) :=
  let gamma := sF D *m W p + bcast M (mu p *m B p) in
  py_loop p gamma (groups (sN D) N_is_int) (Post 0 (fun _ => 0) (const_mx (- (half * d%:R * ln2pi))) 0).

(** ** EM: frplda.py:165-236 *)
Record estats d := Estats { eN : F; eM : F; eS : 'M[F]_d; elogpy : F; ey : 'rV[F]_d; eR : 'M[F]_d; eC : 'M[F]_d; eP : 'M[F]_d }.
Definition Estep {M d} (p : plda d) (D : stats M d) (N_is_int : bool) : res (estats d) :=
  let! r := compute_py_g_x p D N_is_int in
  let Niy : 'M[F]_(M, d) := \matrix_(i, j) (py r i j * sN D 0 i) in
  ok (Estats (\sum_i sN D 0 i) M%:R (sS D) (\sum_i plogpy r 0 i) (\sum_i row i (py r)) (Niy^T *m py r) ((sF D)^T *m py r)
    (pPy r + (py r)^T *m py r)).
Definition inner {d} (A C : 'M[F]_d) : F := \sum_i \sum_j A i j * C i j.
Definition elbo {d} (p : plda d) (s : estats d) : res F :=
  let! logW := logdet_pdmat ln (W p) in
  let! logB := logdet_pdmat ln (B p) in
  let logpx_y := half * (- (eN s * d%:R * ln2pi) + eN s * logW - inner (W p) (eS s)) in
  let logpy := half * eM s * (- (d%:R * ln2pi) + logB - (mu p *m B p *m (mu p)^T) 0 0) in
  ok (logpx_y + logpy - elogpy s).
Definition MstepML {d} (cf : config) (p : plda d) (s : estats d) : res (plda d) :=
  let ybar := (eM s)^-1 *: ey s in
  let m := if update_mu cf then ybar else mu p in
  let! b := (if update_B cf then
      let iB := if update_mu cf then (eM s)^-1 *: eP s - m^T *m m
        else let muybar := m^T *m ybar in (eM s)^-1 *: eP s - muybar - muybar + m^T *m m in
      let! r := invert_pdmat ln iB false in ok (p_inv r)
    else ok (B p)) in
  let! w := (if update_W cf then
      let iW := (eN s)^-1 *: (eS s - eC s - (eC s)^T + eR s) in
      if fullcov_W cf then let! r := invert_pdmat ln iW false in ok (p_inv r)
      else ok (diag_mx (\row_j (iW j j)^-1))
    else ok (W p)) in
  ok (Plda m b w).
(** plda_base.py:42-88: the loop of fit on the training data; MstepMD does nothing for this model (frplda.py:235-236). The result: the model
    and the ELBOs of the epochs. *)
Fixpoint fit_loop {M d} (cf : config) (use_ml : bool) (D : stats M d) (N_is_int : bool) (epochs : nat) (p : plda d) : res (plda d * seq F) :=
  if epochs is e.+1 then
    let! s := Estep p D N_is_int in
    let! v := elbo p s in
    let! p' := (if use_ml then MstepML cf p s else ok p) in
    let! r := fit_loop cf use_ml D N_is_int e p' in
    ok (r.1, v :: r.2)
  else ok (p, [::]).

(** ** Scores: frplda.py:266-304 *)
(** the pair (mult_icholL, logL): multiplication by the inverse of the Cholesky factor and log-determinant *)
Definition chol_right {d} (L : 'M[F]_d) : res ((forall n, 'M[F]_(n, d) -> res 'M[F]_(n, d)) * F) :=
  let! R := cholesky L in ok ((fun n x => tri_right R false x), 2%:R * tri_logdet ln R).
Definition sqsum {n d} (g : 'M[F]_(n, d)) : 'I_n -> F := fun i => \sum_j g i j * g i j.
Definition llr_1vs1 {n1 n2 d} (p : plda d) (x1 : 'M[F]_(n1, d)) (x2 : 'M[F]_(n2, d)) : res 'M[F]_(n1, n2) :=
  let! non := chol_right (B p + W p) in
  let! tar := chol_right (B p + 2%:R *: W p) in
  let WF1 := x1 *m W p in let WF2 := x2 *m W p in
  let Bmu := mu p *m B p in
  let! gn1 := non.1 _ (WF1 + bcast n1 Bmu) in
  let! gn2 := non.1 _ (WF2 + bcast n2 Bmu) in
  let! gt1 := tar.1 _ (WF1 + bcast n1 (half *: Bmu)) in
  let! gt2 := tar.1 _ (WF2 + bcast n2 (half *: Bmu)) in
  let! logB := logdet_pdmat ln (B p) in
  ok (\matrix_(i, j) (half * (2%:R * (gt1 *m gt2^T) i j + (sqsum gt1 i - sqsum gn1 i + sqsum gt2 j - sqsum gn2 j)
    + (2%:R * non.2 - tar.2 - logB + (mu p *m B p *m (mu p)^T) 0 0)))).
(** frplda.py:308-363 *)
Definition book_ij {M1 M2 d} (p : plda d) (F1 : 'M[F]_(M1, d)) (F2 : 'M[F]_(M2, d)) (N1_i N2_j : F) : res 'M[F]_(M1, M2) :=
  let! l1 := chol_right (B p + N1_i *: W p) in
  let! l2 := chol_right (B p + N2_j *: W p) in
  let! tar := chol_right (B p + (N1_i + N2_j) *: W p) in
  let WF1 := F1 *m W p in let WF2 := F2 *m W p in
  let Bmu := mu p *m B p in
  let! gn1 := l1.1 _ (WF1 + bcast M1 Bmu) in
  let! gn2 := l2.1 _ (WF2 + bcast M2 Bmu) in
  let! gt1 := tar.1 _ (WF1 + bcast M1 (half *: Bmu)) in
  let! gt2 := tar.1 _ (WF2 + bcast M2 (half *: Bmu)) in
  ok (\matrix_(i, j) (2%:R * (gt1 *m gt2^T) i j + (sqsum gt1 i - sqsum gn1 i + sqsum gt2 j - sqsum gn2 j) + (l1.2 + l2.2 - tar.2))).
(** the loops over the pairs of counts; scores[np.ix_(i,j)] = scores_ij with i, j the classes with these counts. The rows F1[i,:] are
    processed independently of each other, so the model computes all the rows and stores the selected ones. *)
Fixpoint book_loop {M1 M2 d} (p : plda d) (D1 : stats M1 d) (D2 : stats M2 d) (ks : seq (F * F)) (sc : 'M[F]_(M1, M2)) : res 'M[F]_(M1, M2) :=
  if ks is (k1, k2) :: ks' then
    let! s := book_ij p (sF D1) (sF D2) k1 k2 in
    book_loop p D1 D2 ks' (\matrix_(i, j) (if (sN D1 0 i == k1) && (sN D2 0 j == k2) then s i j else sc i j))
  else ok sc.
Definition llr_NvsM_book {M1 M2 d} (p : plda d) (D1 : stats M1 d) (D2 : stats M2 d) : res 'M[F]_(M1, M2) :=
  let! sc := book_loop p D1 D2 [seq (k1, k2) | k1 <- np_unique [seq sN D1 0 i | i <- enum 'I_M1], k2 <- np_unique [seq sN D2 0 j | j <- enum 'I_M2]] 0 in
  let! logB := logdet_pdmat ln (B p) in
  ok (\matrix_(i, j) (half * (sc i j + (- logB + (mu p *m B p *m (mu p)^T) 0 0)))).
(** plda_base.py:269-277, 307-314: scores of the class averages, with or without length normalisation of the averages *)
Definition averages {M d} (D : stats M d) : 'M[F]_(M, d) := \matrix_(i, j) (sF D i j / sN D 0 i).
Definition llr_NvsM_vavg {M1 M2 d} (eps : F) (p : plda d) (D1 : stats M1 d) (D2 : stats M2 d) (do_lnorm : bool) : res 'M[F]_(M1, M2) :=
  let x1 := averages D1 in let x2 := averages D2 in
  if do_lnorm then llr_1vs1 p (lnorm eps x1) (lnorm eps x2) else llr_1vs1 p x1 x2.
Definition llr_Nvs1_vavg {M1 n2 d} (eps : F) (p : plda d) (D1 : stats M1 d) (x2 : 'M[F]_(n2, d)) (do_lnorm : bool) : res 'M[F]_(M1, n2) :=
  let x1 := averages D1 in
  if do_lnorm then llr_1vs1 p (lnorm eps x1) (lnorm eps x2) else llr_1vs1 p x1 x2.
(** plda_base.py:281-287, 318-322: averages of the scores *)
Definition llr_Nvs1_savg {n1 n2 d} (p : plda d) (x1 : 'M[F]_(n1, d)) (ids1 : 'I_n1 -> nat) (x2 : 'M[F]_(n2, d)) : res 'M[F]_(num_classes ids1, n2) :=
  let! sc := llr_1vs1 p x1 x2 in
  let! D := compute_stats_hard sc ids1 None None in
  ok (averages D).
Definition llr_NvsM_savg {n1 n2 d} (p : plda d) (x1 : 'M[F]_(n1, d)) (ids1 : 'I_n1 -> nat) (x2 : 'M[F]_(n2, d)) (ids2 : 'I_n2 -> nat)
    : res 'M[F]_(num_classes ids1, num_classes ids2) :=
  let! sc := llr_Nvs1_savg p x1 ids1 x2 in
  let! D := compute_stats_hard sc^T ids2 None None in
  ok (\matrix_(i, j) ((sF D)^T i j / sN D 0 j)).
(** plda_base.py:253-265, 291-303: the choice of the method. The statistics may be given directly (ids None). *)
Definition book_1 {n d} (x : 'M[F]_(n, d)) : res (stats (num_classes (fun i : 'I_n => i : nat)) d) := compute_stats_hard x (fun i => i) None None.

(** ** Model combination: frplda.py:394-409, plda_base.py:339-345 *)
Definition weighted_avg_model {d} (p q : plda d) (w_mu w_B w_W : F) : res (plda d) :=
  let m := w_mu *: mu q + (1 - w_mu) *: mu p in
  let comb w P Q := (if 0 < w then
      let! s0 := invert_pdmat ln P false in
      let! s := invert_pdmat ln Q false in
      let! r := invert_pdmat ln (w *: p_inv s + (1 - w) *: p_inv s0) false in ok (p_inv r)
    else ok P) in
  let! b := comb w_B (B p) (B q) in
  let! w := comb w_W (W p) (W q) in
  ok (Plda m b w).
(** frplda.py:367-391: the samples from the numbers drawn *)
Definition sample {C K d} (p : plda d) (z : 'I_C -> 'I_K -> 'rV[F]_d) (y : 'I_C -> 'rV[F]_d) : res ('I_C -> 'I_K -> 'rV[F]_d) :=
  let! sb := invert_pdmat ln (B p) false in
  let! chol_Sb := cholesky (p_inv sb) in
  let! sw := invert_pdmat ln (W p) false in
  let! chol_Sw := cholesky (p_inv sw) in
  ok (fun c k => (y c *m chol_Sb + mu p) + z c k *m chol_Sw).
End Frplda.
