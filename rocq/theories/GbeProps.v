(** The linear Gaussian back-end (C83): its scores are Gaussian log densities, its normalised scores are Bayes posteriors, fit maximises the
    (penalised, class-balanced) likelihood; the predictive scores are not the Student-t densities they are meant to be. *)
From Verif Require Import RingF LinAlg LinAlgProps GaussLa Frplda FrpldaProps FrpldaEm Splda SpldaProps SpldaEm Gbe.
Set Warnings "-notation-overridden,-ambiguous-paths".
From mathcomp Require Import all_ssreflect all_algebra.
Set Implicit Arguments. Unset Strict Implicit. Unset Printing Implicit Defensive.
Import Order.TTheory GRing.Theory Num.Theory.
Local Open Scope ring_scope.

Section P.
Variable F : rcfType.
Add Ring FRing' : (F_ring F). Add Ring FZRing' : (F_zring F). Add Field FField' : (F_field F). Add Field FZField' : (F_zfield F).
Variables (ln expf gammaln : F -> F) (pi : F).
Notation lg := (log_gauss ln (ln (2%:R * pi))).
Notation config := (Gbe.config F).
Notation fit := (Gbe.fit ln). Notation predict := (Gbe.predict ln expf gammaln pi).
Notation half := (2%:R^-1 : F).

(** ** Specification *)
(** the exponential, inverse of the logarithm *)
Definition exp_ok : Prop := (forall a b, expf (a + b) = expf a * expf b) /\ (forall a, 0 < expf a) /\ (forall t, 0 < t -> expf (ln t) = t).
(** the objects a program can have: built with some parameters, or trained from such an object *)
Inductive reachable K d : gbe F K d -> Prop :=
| R_make mu W beta nu : reachable (make mu W beta nu)
| R_fit n cf o pr (x : 'M[F]_(n, d)) p w o' : reachable o -> fit cf o pr x p w = ok o' -> reachable o'.
(** the posterior probability of class k, all the classes equally likely, from the log likelihoods of the classes *)
Definition posterior {K} (llk : 'I_K -> F) (k : 'I_K) : F := expf (llk k) / \sum_l expf (llk l).
(** the logarithm of the multivariate Student-t density with c degrees of freedom, location m and shape matrix L^-1 *)
Definition log_student {d} (c : F) (L : 'M[F]_d) (m y : 'rV[F]_d) : F :=
  gammaln ((c + d%:R) / 2%:R) - gammaln (c / 2%:R) + half * ln (\det L) - half * d%:R * ln (c * pi)
  - half * (c + d%:R) * ln (1 + form L (y - m) (y - m) / c).

(** ** Lemmas *)
Lemma reach_ab K d (o : gbe F K d) mu W : reachable o -> g_mu o = Some mu -> g_W o = Some W ->
  g_Ab o = Some (W *m mu^T, \row_k (- half * \sum_j mu^T j k * (W *m mu^T) j k)).
Proof.
case=> [mu' W' beta nu|n cf o0 pr x p w o' _]; first by rewrite /make /= => -> ->.
rewrite /Gbe.fit. set q := fit_mu _ _ _ _ _. case: q => [[xbar mu'] beta].
case E: (if update_W cf then _ else _) => [[W' nu]|//] [<-] /= -> ->. by [].
Qed.
Lemma lin_ok n K d (o : gbe F K d) (x : 'M[F]_(n, d)) mu W : reachable o -> g_mu o = Some mu -> g_W o = Some W ->
  eval_linear o x = ok (\matrix_(i, k) (form W (row i x) (row k mu) - half * form W (row k mu) (row k mu))).
Proof.
move=> R M G. rewrite /eval_linear (reach_ab R M G). congr (ok _). apply/matrixP => i k. rewrite !mxE. congr (_ + _).
  rewrite /form -mulmxA mxE. apply: eq_bigr => j _. rewrite !mxE. congr (_ * _). apply: eq_bigr => l _. by rewrite !mxE.
rewrite mulNr. congr (- (_ * _)). rewrite /form -mulmxA mxE. apply: eq_bigr => j _. rewrite !mxE. congr (_ * _). apply: eq_bigr => l _. by rewrite !mxE.
Qed.
Lemma quad_ok n d (W : 'M[F]_d) (x : 'M[F]_(n, d)) i : quad W x i = form W (row i x) (row i x).
Proof. rewrite /quad /form mxE. apply: eq_bigr => j _. by rewrite -row_mul !mxE. Qed.
Lemma sq_form d (W : 'M[F]_d) y m : W^T = W -> form W y y - 2%:R * (form W y m - half * form W m m) = form W (y - m) (y - m).
Proof. move=> S. rewrite form_sub // (formC y m S). have Q : forall a b e : F, a - 2%:R * (b - half * e) = a - 2%:R * b + e by ff. exact: Q. Qed.

(** ** Scores *)
Theorem C83_llk : is_log ln -> forall n K d (o : gbe F K d) (x : 'M[F]_(n, d)) mu W,
  reachable o -> g_mu o = Some mu -> g_W o = Some W -> posdef W ->
  predict o x ByLlk false = ok (\matrix_(i, k) lg W (row k mu) (row i x)).
Proof.
move=> LN n K d o x mu W R M G D. rewrite /Gbe.predict /eval_llk (lin_ok x R M G) /= G (logdet_ok LN D) /=. congr (ok _). apply/matrixP => i k.
rewrite !mxE /log_gauss quad_ok -(sq_form (row i x) (row k mu) D.1).
have Q : forall a b e l p : F, a - half * b + (half * l - half * p * e + - half * (e * 0 + b)) = half * (l - p * e - (b - 2%:R * (a - half * b))) by ff.
have Q' : forall q a b e l p : F, a - half * b + (half * l - half * p * e + - half * q) = half * (l - p * e - (q - 2%:R * (a - half * b))) by ff.
exact: Q'.
Qed.
(** the linear scores differ from the log likelihoods by something that is the same for all the classes *)
Theorem C83_linear : is_log ln -> forall n K d (o : gbe F K d) (x : 'M[F]_(n, d)) mu W,
  reachable o -> g_mu o = Some mu -> g_W o = Some W -> posdef W ->
  exists s, predict o x ByLinear false = ok s /\ forall i k l, s i k - s i l = lg W (row k mu) (row i x) - lg W (row l mu) (row i x).
Proof.
move=> LN n K d o x mu W R M G D. eexists. split; first by rewrite /Gbe.predict (lin_ok x R M G). move=> i k l.
rewrite !mxE /log_gauss -(sq_form (row i x) (row k mu) D.1) -(sq_form (row i x) (row l mu) D.1).
have Q : forall a b a' b' q e : F, a - half * b - (a' - half * b') = half * (e - (q - 2%:R * (a - half * b))) - half * (e - (q - 2%:R * (a' - half * b'))) by ff.
exact: Q.
Qed.
(** softmax is invariant under a shift of a row *)
Lemma softmax_ok n K (s t : 'M[F]_(n, K.+1)) : exp_ok -> (forall i k l, s i k - s i l = t i k - t i l) ->
  exists p, softmax expf s = ok p /\ forall i k, p i k = posterior (t i) k /\ 0 < p i k.
Proof.
move=> [EA [EP _]] H. eexists. split; first by []. move=> i k. rewrite mxE /posterior.
have E : forall l, expf (s i l - row_max s i) = expf (t i l) * expf (s i k - t i k - row_max s i).
  move=> l. rewrite -EA. congr expf. have Q : forall a b a' b' m : F, a - b = a' - b' -> a - m = a' + (b - b' - m).
    move=> a b a' b' m Q. have -> : a = a' - b' + b by rewrite -Q subrK. have Q2 : forall a' b' b m : F, a' - b' + b - m = a' + (b - b' - m) by fr. exact: Q2.
  exact: Q.
have E2 : \sum_l (\matrix_(i0, k0) expf (s i0 k0 - row_max s i0) : 'M[F]_(n, K.+1)) i l = (\sum_l expf (t i l)) * expf (s i k - t i k - row_max s i).
  rewrite mulr_suml. apply: eq_bigr => l _. by rewrite mxE E.
have PS : 0 < \sum_l expf (t i l) by rewrite (bigD1 k) //= ltr_spaddl // sumr_ge0 // => l _; exact: ltW.
rewrite E2 mxE E. rewrite -mulf_div mulfV ?mulr1; last by rewrite gt_eqF. split=> //. exact: divr_gt0.
Qed.
(** the normalised scores, of both kinds, are the logarithms of the Bayes posteriors *)
Theorem C83_posterior : is_log ln -> exp_ok -> forall n K d (o : gbe F K.+1 d) (x : 'M[F]_(n, d)) mu W method,
  reachable o -> g_mu o = Some mu -> g_W o = Some W -> posdef W -> method <> ByPredictive ->
  exists p, predict o x method true = ok p /\
    forall i, (forall k, expf (p i k) = posterior (fun k => lg W (row k mu) (row i x)) k) /\ \sum_k expf (p i k) = 1.
Proof.
move=> LN EX n K d o x mu W me R M G D ME. set t : 'M[F]_(n, K.+1) := \matrix_(i, k) lg W (row k mu) (row i x).
have [s [ES DS]] : exists s, predict o x me false = ok s /\ forall i k l, s i k - s i l = t i k - t i l.
  case: me ME => // _; last by exists t; rewrite (C83_llk LN x R M G D).
  have [s [E H]] := C83_linear LN x R M G D. exists s. split=> // i k l. by rewrite H !mxE.
have [p [E P]] := softmax_ok EX DS. exists (map_mx ln p). split.
  move: ES. rewrite /Gbe.predict. case: (match me with ByLinear => _ | ByLlk => _ | ByPredictive => _ end) => // a [->].
  change (Base.bind (softmax expf s) (fun p => ok (map_mx ln p)) = ok (map_mx ln p)). by rewrite E.
have [EA [EP EL]] := EX.
have PK : forall i k, expf (map_mx ln p i k) = posterior (fun k => lg W (row k mu) (row i x)) k.
  move=> i k. rewrite mxE EL; last exact: (P i k).2. rewrite (P i k).1 /posterior !mxE. congr (_ / _). apply: eq_bigr => l _. by rewrite mxE.
move=> i. split; first exact: PK. under eq_bigr do rewrite PK. rewrite /posterior -mulr_suml mulfV // gt_eqF //.
rewrite (bigD1 0) //= ltr_spaddl // sumr_ge0 // => l _. exact: ltW.
Qed.

(** ** The predictive scores *)
Lemma ln_pow a n : is_log ln -> 0 < a -> ln (a ^+ n) = n%:R * ln a.
Proof.
move=> LN A. elim: n => [|n IH]; first by rewrite expr0 mul0r (ln_1 LN). rewrite exprS LN ?exprn_gt0 // IH -[in RHS]addn1 natrD.
have Q : forall a b : F, a + b * a = (b + 1) * a by fr. exact: Q.
Qed.
(** they are the logarithms of the Student-t densities of the classes plus an error that depends on the class *)
Theorem C83_predictive_gap : is_log ln -> forall n K d (o : gbe F K d) (x : 'M[F]_(n, d)) mu W beta nu,
  reachable o -> g_mu o = Some mu -> g_W o = Some W -> g_beta o = Some beta -> g_nu o = Some nu -> posdef W ->
  0 < nu -> 0 < nu + 1 - d%:R -> (forall k, 0 < beta 0 k) ->
  let c := nu + 1 - d%:R in let r k := beta 0 k / (beta 0 k + 1) in
  predict o x ByPredictive false =
    ok (\matrix_(i, k) (log_student c ((c * r k / nu) *: W) (row k mu) (row i x) + half * d%:R * (r k - ln (c * r k)))).
Proof.
move=> LN n K d o x mu W beta nu R M G B NU D P0 PC PB c r.
have DK : posdef (nu^-1 *: W) by apply: posdefZ => //; rewrite invr_gt0.
rewrite /Gbe.predict /eval_predictive G NU B (logdet_ok LN DK) /= (lin_ok x R M G) /=. congr (ok _). apply/matrixP => i k. rewrite !mxE.
rewrite quad_ok (sq_form (row i x) (row k mu) D.1) /log_student -/c.
have PR : 0 < r k by apply: divr_gt0; [exact: PB|exact: addr_gt0 (PB k) ltr01].
have -> : (c * r k / nu) *: W = (c * r k) *: (nu^-1 *: W) by rewrite scalerA.
have PCR : 0 < c * r k by exact: mulr_gt0.
have -> : ln (\det ((c * r k) *: (nu^-1 *: W))) = d%:R * ln (c * r k) + ln (\det (nu^-1 *: W)).
  by rewrite [LHS](congr1 ln (detZ _ _)) LN ?exprn_gt0 ?ln_pow // det_pos.
set f := form W (row i x - row k mu) (row i x - row k mu). have -> : form ((c * r k) *: (nu^-1 *: W)) (row i x - row k mu) (row i x - row k mu) / c = r k * f / nu.
  rewrite !formPZ -/f. have C0 : c != 0 by rewrite gt_eqF. have N0 : nu != 0 by rewrite gt_eqF.
  have Q : forall c r u f : F, c * r * (u * f) / c = c / c * (r * f * u) by fr. by rewrite Q mulfV // mul1r.
rewrite -/(r k). have -> : c + d%:R = nu + 1 by rewrite /c subrK.
set g1 := gammaln _. set g2 := gammaln (c / _). set q := ln (\det _). set l := ln (c * pi). set l2 := ln (c * r k). set z := ln (1 + _).
have Q2 : forall g1 g2 p l q e z l2 n : F, g1 - g2 - half * p * l + (half * q + half * p * e) + - half * n * z =
  g1 - g2 + half * (p * l2 + q) - half * p * l - half * n * z + half * p * (e - l2) by fr.
exact: Q2.
Qed.
(** the normalised ones are right if all the classes have the same weight beta *)
Theorem C83_predictive_partial : is_log ln -> exp_ok -> forall n K d (o : gbe F K.+1 d) (x : 'M[F]_(n, d)) mu W beta nu,
  reachable o -> g_mu o = Some mu -> g_W o = Some W -> g_beta o = Some (const_mx beta) -> g_nu o = Some nu -> posdef W ->
  0 < nu -> 0 < nu + 1 - d%:R -> 0 < beta ->
  let c := nu + 1 - d%:R in
  exists p, predict o x ByPredictive true = ok p /\
    forall i k, expf (p i k) = posterior (fun k => log_student c ((c * (beta / (beta + 1)) / nu) *: W) (row k mu) (row i x)) k.
Proof.
move=> LN EX n K d o x mu W beta nu R M G B NU D P0 PC PB c.
have PB' : forall k, 0 < (const_mx beta : 'rV[F]_K.+1) 0 k by move=> k; rewrite mxE.
have := C83_predictive_gap LN x R M G B NU D P0 PC PB'. lazy zeta. set s := \matrix_(i, k) _. move=> E.
set t : 'M[F]_(n, K.+1) := \matrix_(i, k) log_student c ((c * (beta / (beta + 1)) / nu) *: W) (row k mu) (row i x).
have DS : forall i k l, s i k - s i l = t i k - t i l.
  move=> i k l. rewrite !mxE -/c. have Q : forall a b e : F, a + e - (b + e) = a - b by fr. exact: Q.
have [p [EP P]] := softmax_ok EX DS. exists (map_mx ln p). split.
  move: E. rewrite /Gbe.predict. case: (eval_predictive _ _ _ _ _) => // a [->].
  change (Base.bind (softmax expf s) (fun p => ok (map_mx ln p)) = ok (map_mx ln p)). by rewrite EP.
move=> i k. rewrite mxE EX.2.2; last exact: (P i k).2. rewrite (P i k).1 /posterior !mxE. congr (_ / _). apply: eq_bigr => l _. by rewrite mxE.
Qed.
(** in general the odds between two classes are wrong whenever their weights differ *)
Theorem C83_predictive_refuted : log_ok ln -> forall n K d (o : gbe F K d.+1) (x : 'M[F]_(n, d.+1)) mu W beta nu,
  reachable o -> g_mu o = Some mu -> g_W o = Some W -> g_beta o = Some beta -> g_nu o = Some nu -> posdef W ->
  0 < nu -> 0 < nu + 1 - d.+1%:R -> (forall k, 0 < beta 0 k) ->
  let c := nu + 1 - d.+1%:R in let r k := beta 0 k / (beta 0 k + 1) in
  exists s, predict o x ByPredictive false = ok s /\ forall i k l, beta 0 k < beta 0 l ->
    s i k - s i l > log_student c ((c * r k / nu) *: W) (row k mu) (row i x) - log_student c ((c * r l / nu) *: W) (row l mu) (row i x).
Proof.
move=> [LN LE] n K d o x mu W beta nu R M G B NU D P0 PC PB c r.
eexists. split; first exact: (C83_predictive_gap LN x R M G B NU D P0 PC PB). move=> i k l LT. rewrite !mxE -/c -/(r k) -/(r l).
set sk := log_student _ _ _ _. set sl := log_student _ _ _ _.
have Q : forall a b e f : F, a + e - (b + f) = a - b + (e - f) by fr. rewrite Q ltr_addl subr_gt0. 
have PR : forall k, 0 < r k by move=> j; apply: divr_gt0; [exact: PB|exact: addr_gt0 (PB j) ltr01].
have P1 : forall k, 0 < beta 0 k + 1 by move=> j; exact: addr_gt0 (PB j) ltr01.
have RL : r k < r l by rewrite /r ltr_pdivr_mulr // mulrAC ltr_pdivl_mulr // mulrDr mulrDr !mulr1 [beta 0 l * _]mulrC ltr_add2l.
have R1 : r l < 1 by rewrite /r ltr_pdivr_mulr // mul1r ltr_addl ltr01.
have HP : 0 < half * d.+1%:R by apply: mulr_gt0; [rewrite invr_gt0 ltr0n|rewrite ltr0n].
rewrite ltr_pmul2l //. rewrite (LN c (r k)) // (LN c (r l)) //.
have L2 : ln (r k) - ln (r l) < r k - r l.
  have -> : ln (r k) = ln (r k / r l) + ln (r l) by rewrite -LN ?divr_gt0 // mulfVK // gt_eqF.
  rewrite addrK. apply: (le_lt_trans (LE _ _)); first exact: divr_gt0.
  have -> : r k / r l - 1 = (r k - r l) / r l by rewrite mulrBl mulfV // gt_eqF.
  rewrite ltr_pdivr_mulr //. by rewrite ltr_nmulr // subr_lt0. 

rewrite -subr_gt0. rewrite -subr_gt0 in L2. have Q3 : forall a b u v w : F, a - (w + u) - (b - (w + v)) = a - b - (u - v) by fr. by rewrite Q3.
Qed.
End P.
