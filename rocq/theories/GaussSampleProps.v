(** C106: Gaussian objectives, samplers and layers with full covariances. *)
From Verif Require Base.
From Verif Require Import RingF LinAlg LinAlgProps GaussLa NormalFullProps GmmFullProps GaussSample.
Set Warnings "-notation-overridden,-ambiguous-paths".
From mathcomp Require Import all_ssreflect all_algebra.
Set Implicit Arguments. Unset Strict Implicit. Unset Printing Implicit Defensive.
Import Order.TTheory GRing.Theory Num.Theory.
Local Open Scope ring_scope.

Section P.
Variable F : rcfType.
Add Ring FRing' : (F_ring F). Add Ring FZRing' : (F_zring F). Add Field FField' : (F_field F). Add Field FZField' : (F_zfield F).
Variable ln ex : F -> F.
Variable c : F.
Hypothesis EX : exp_ok ln ex.
Notation log_gauss := (log_gauss ln c).

(** ** Specification *)
(** upper triangular with ones in the diagonal *)
Definition unit_upper {n} (C : 'M[F]_n) : Prop := upper C /\ forall i, C i i = 1.
(** the covariance that logvar and chol stand for *)
Definition cov_of {n} (logvar : 'rV[F]_n) (C : 'M[F]_n) : 'M[F]_n := C^T *m diag_mx (map_mx ex logvar) *m C.
Definition var_diag {n} (logvar : 'rV[F]_n) : 'M[F]_n := diag_mx (map_mx ex logvar).

(** ** Proofs *)
Lemma exD a b : ex (a + b) = ex a * ex b. Proof. by case: EX. Qed.
Lemma ex_gt0 a : 0 < ex a. Proof. by case: EX => _ []. Qed.
Lemma ex_neq0 a : ex a != 0. Proof. by rewrite gt_eqF // ex_gt0. Qed.
Lemma ex_ln t : 0 < t -> ex (ln t) = t. Proof. by case: EX => _ [_ [_ H]]; exact: H. Qed.
Lemma ln_ex a : ln (ex a) = a. Proof. by case: EX => _ [_ []]. Qed.
Lemma ex_0 : ex 0 = 1.
Proof. have := exD 0 0. rewrite addr0 => H. apply: (mulfI (ex_neq0 0)). by rewrite mulr1 -H. Qed.
Lemma ex_opp a : ex (- a) = (ex a)^-1.
Proof. apply: (mulfI (ex_neq0 a)). by rewrite -exD subrr ex_0 mulfV // ex_neq0. Qed.
Lemma ex_half a : ex (a / 2%:R) * ex (a / 2%:R) = ex a.
Proof. rewrite -exD. congr (ex _). have H : forall x : F, x / 2%:R + x / 2%:R = x by ff. exact: H. Qed.
Lemma log_of_exp : is_log ln.
Proof. move=> a b A B. by rewrite -{1}(ex_ln A) -{1}(ex_ln B) -exD ln_ex. Qed.
Lemma had_diag n (a b : 'rV[F]_n) : had a b = a *m diag_mx b.
Proof. apply/rowP => j. by rewrite mxE mul_mx_diag mxE. Qed.
Lemma hadC n (a b : 'rV[F]_n) : had a b = had b a. Proof. apply/rowP => j. by rewrite !mxE mulrC. Qed.
Lemma diag_mul n (a b : 'rV[F]_n) : diag_mx a *m diag_mx b = diag_mx (had a b).
Proof. apply/matrixP => i j. rewrite mul_diag_mx !mxE. case: (i == j); by rewrite ?mulr1n ?mulr0n ?mulr0. Qed.
Lemma diag_one n : diag_mx (const_mx 1) = 1%:M :> 'M[F]_n.
Proof. by rewrite diag_const_mx. Qed.
Lemma diag_unit n (a b : 'rV[F]_n) : had a b = const_mx 1 -> diag_mx a \in unitmx /\ invmx (diag_mx a) = diag_mx b.
Proof.
move=> H. have E : diag_mx a *m diag_mx b = 1%:M by rewrite diag_mul H diag_one.
case: (mulmx1_unit E) => U _. split=> //. by rewrite -[RHS]mul1mx -(mulVmx U) -mulmxA E mulmx1.
Qed.
Definition sg {n} (lv : 'rV[F]_n) : 'rV[F]_n := map_mx (fun v => ex (v / 2%:R)) lv.
Definition isg {n} (lv : 'rV[F]_n) : 'rV[F]_n := map_mx (fun v => ex (- v / 2%:R)) lv.
Lemma sg_isg n (lv : 'rV[F]_n) : had (sg lv) (isg lv) = const_mx 1.
Proof. apply/rowP => j. rewrite !mxE mulNr ex_opp mulfV // ex_neq0. by []. Qed.
Lemma sg_sg n (lv : 'rV[F]_n) : had (sg lv) (sg lv) = map_mx ex lv.
Proof. apply/rowP => j. by rewrite !mxE ex_half. Qed.
(** the root of the covariance that the sampler uses *)
Definition rootm {n} (lv : 'rV[F]_n) (C : 'M[F]_n) : 'M[F]_n := diag_mx (sg lv) *m C.
Lemma rootm_cov n (lv : 'rV[F]_n) (C : 'M[F]_n) : (rootm lv C)^T *m rootm lv C = cov_of lv C.
Proof. by rewrite /rootm /cov_of trmx_mul tr_diag_mx -sg_sg -diag_mul !mulmxA. Qed.
Lemma rootm_unit n (lv : 'rV[F]_n) (C : 'M[F]_n) : C \in unitmx -> rootm lv C \in unitmx /\ invmx (rootm lv C) = invmx C *m diag_mx (isg lv).
Proof.
move=> U. case: (diag_unit (sg_isg lv)) => V E. have W : rootm lv C \in unitmx by rewrite unitmx_mul V U.
split=> //. have K : rootm lv C *m (invmx C *m diag_mx (isg lv)) = 1%:M by rewrite /rootm mulmxA mulmxK // -E mulmxV.
by rewrite -[RHS]mul1mx -(mulVmx W) -mulmxA K mulmx1.
Qed.
Lemma cov_posdef n (lv : 'rV[F]_n) (C : 'M[F]_n) : C \in unitmx -> posdef (cov_of lv C).
Proof. move=> U. rewrite -rootm_cov. apply: gram_posdef. exact: (rootm_unit lv U).1. Qed.
Lemma unit_upper_det n (C : 'M[F]_n) : unit_upper C -> \det C = 1.
Proof. case=> U D. by rewrite upper_det // big1. Qed.
Lemma unit_upper_unit n (C : 'M[F]_n) : unit_upper C -> C \in unitmx.
Proof. move=> U. by rewrite unitmxE unit_upper_det // unitr1. Qed.
Lemma ln_det_cov n (lv : 'rV[F]_n) (C : 'M[F]_n) : unit_upper C -> ln (\det (cov_of lv C)) = \sum_j lv 0 j.
Proof.
move=> U. rewrite /cov_of !det_mulmx det_tr unit_upper_det // mul1r mulr1 det_diag.
rewrite (@ln_prod _ ln _ (fun i => (map_mx ex lv) 0 i)); last first.
- by move=> i; rewrite mxE ex_gt0.
- exact: log_of_exp.
apply: eq_bigr => i _. by rewrite mxE ln_ex.
Qed.
Lemma normal_dist n (y mu lv : 'rV[F]_n) (C : 'M[F]_n) : C \in unitmx ->
  \sum_j (had ((y - mu) *m invmx C) (isg lv)) 0 j ^+ 2 = form (invmx (cov_of lv C)) (y - mu) (y - mu).
Proof.
move=> U. case: (rootm_unit lv U) => V E. rewrite had_diag -mulmxA -E -rootm_cov.
have -> : invmx ((rootm lv C)^T *m rootm lv C) = invmx (rootm lv C) *m (invmx (rootm lv C))^T.
  have W : (rootm lv C)^T \in unitmx by rewrite unitmx_tr.
  have K : ((rootm lv C)^T *m rootm lv C) *m (invmx (rootm lv C) *m (invmx (rootm lv C))^T) = 1%:M.
    by rewrite mulmxA mulmxK // trmx_inv mulmxV.
  have Z : (rootm lv C)^T *m rootm lv C \in unitmx by rewrite unitmx_mul W V.
  by rewrite -[RHS]mul1mx -(mulVmx Z) -mulmxA K mulmx1.
by rewrite form_sq.
Qed.
Lemma sum_half n (lv q : 'I_n -> F) : (2%:R^-1 * (\sum_j (c + lv j + q j)) : F) = - (2%:R^-1 * (- (\sum_j lv j) - n%:R * c - (\sum_j q j))).
Proof.
rewrite !big_split /= sumr_const card_ord -[c *+ n]mulr_natl.
have H : forall a b d : F, 2%:R^-1 * (a + b + d) = - (2%:R^-1 * (- b - a - d)) by ff. exact: H.
Qed.

(** C106: for a chol with ones in the diagonal, normal is minus the logarithm of the Gaussian density with the given mean and the covariance
    chol' diag(exp(logvar)) chol, for every point. *)
Theorem C106_normal : forall n (y mu lv : 'rV[F]_n) (C : 'M[F]_n), unit_upper C ->
  normal ex c y mu lv C = ok (- log_gauss (invmx (cov_of lv C)) mu y).
Proof.
move=> n y mu lv C U. have V := unit_upper_unit U. rewrite /normal /kinv V /=. congr (Verif.Base.Ok _).
rewrite sum_half. congr (- (_ * (_ - _))); last exact: normal_dist.
congr (_ - _). by rewrite (ln_det_inv log_of_exp (cov_posdef lv V)) ln_det_cov.
Qed.
(** C106: diag_normal is the case without correlations. *)
Theorem C106_diag_normal : forall n (y mu lv : 'rV[F]_n), diag_normal ex c y mu lv = - log_gauss (invmx (var_diag lv)) mu y.
Proof.
move=> n y mu lv.
have U : unit_upper (1%:M : 'M[F]_n).
  split=> [i j H|i]; rewrite mxE; last by rewrite eqxx. by have -> : (i == j) = false by apply/negP => /eqP E; rewrite E ltnn in H.
have E : var_diag lv = cov_of lv 1%:M by rewrite /cov_of trmx1 mul1mx mulmx1.
have := C106_normal y mu lv U. rewrite -E /normal /kinv (unit_upper_unit U) /= => -[<-]. rewrite /diag_normal. congr (_ * _). apply: eq_bigr => j _. congr (_ + _).
rewrite had_diag invmx1 mulmx1 -had_diag !mxE exprMn. congr (_ * _). by rewrite mulNr ex_opp expr2 -invfM ex_half.
Qed.
(** C106: what the sampler draws with format logvar+chol is mu + eps A with A'A the covariance, and the objective of a sample depends only on
    the numbers drawn. *)
Theorem C106_sampler : forall n (mu lv eps : 'rV[F]_n) (C : 'M[F]_n), C \in unitmx ->
  (exists A : 'M[F]_n, A^T *m A = cov_of lv C /\ forall mu eps, g_logvar_chol ex mu lv C eps = mu + eps *m A) /\
  normal ex c (g_logvar_chol ex mu lv C eps) mu lv C = ok (2%:R^-1 * \sum_j (c + lv 0 j + eps 0 j ^+ 2)).
Proof.
move=> n mu lv eps C U. split.
  exists (rootm lv C). split; first exact: rootm_cov. move=> m e. by rewrite /g_logvar_chol had_diag /rootm mulmxA.
rewrite /normal /kinv U /=. congr (Verif.Base.Ok (_ * _)). apply: eq_bigr => j _. congr (_ + _ ^+ 2).
rewrite /g_logvar_chol addrC addKr mulmxK //. have := sg_isg lv. move/rowP => /(_ j). rewrite !mxE => H.
rewrite -mulrA H mulr1. by [].
Qed.
(** C106: the formats var+chol and std+chol draw from another distribution than logvar+chol, for the same chol and the same variances. *)
Theorem C106_var_chol_refuted : exists C : 'M[F]_2, unit_upper C /\ exists A B B' : 'M[F]_2,
  (forall mu eps, g_logvar_chol ex mu 0 C eps = mu + eps *m A) /\ (forall mu eps, g_var_chol mu (const_mx 1) C eps = mu + eps *m B) /\
  (forall mu eps, g_std_chol mu (const_mx 1) C eps = mu + eps *m B') /\
  A^T *m A = cov_of 0 C /\ B^T *m B <> cov_of 0 C /\ B'^T *m B' <> cov_of 0 C.
Proof.
pose C : 'M[F]_2 := \matrix_(i, j) (if (i <= j)%N then 1 else 0).
have U : unit_upper C by split=> [i j H|i]; rewrite mxE ?leqnn // leqNgt H.
exists C. split=> //. exists (rootm 0 C), C^T, C^T.
have Z : map_mx ex (0 : 'rV[F]_2) = const_mx 1 by apply/rowP => j; rewrite !mxE ex_0.
have K : cov_of 0 C = C^T *m C by rewrite /cov_of Z diag_one mulmx1.
have N : C^T^T *m C^T <> cov_of 0 C.
  rewrite K trmxK => /matrixP /(_ 0 0). rewrite !mxE !big_ord_recl !big_ord0 !mxE /=. rewrite !mulr1 !mulr0 !addr0 => /eqP.
  rewrite -subr_eq0 addrK oner_eq0. by [].
split; first by move=> m e; rewrite /g_logvar_chol had_diag /rootm mulmxA.
split; first by move=> m e; rewrite /g_var_chol hadC; congr (_ + _); apply/rowP => j; rewrite !mxE normr1 sqrtr1 mulr1.
split; first by move=> m e; rewrite /g_std_chol hadC; congr (_ + _); apply/rowP => j; rewrite !mxE normr1 mulr1.
split; first exact: rootm_cov. by split.
Qed.
(** C106: the constraint Triu(dim, 1) that is put on chol after every update makes it upper triangular with ones in the diagonal, whatever it
    was, and does not change such a matrix. *)
Theorem C106_triu : forall n (p : 'M[F]_n), unit_upper (triu_constraint (Some 1) p) /\ (unit_upper p -> triu_constraint (Some 1) p = p) /\
  (forall i j : 'I_n, (i < j)%N -> triu_constraint (Some 1) p i j = p i j) /\ upper (triu_constraint None p) /\ (upper p -> triu_constraint None p = p).
Proof.
move=> n p. rewrite /triu_constraint oner_eq0 /=.
have Q : forall i j : 'I_n, ((\matrix_(i, j) (if (i < j)%N then 1 * p i j else 0 * p i j)) + 1%:M) i j = if (i < j)%N then p i j else if i == j then 1 else 0 :> F.
  move=> i j. rewrite 3!mxE. case: (ltnP i j) => H.
    have -> : (i == j) = false by apply/negP => /eqP E; rewrite E ltnn in H. by rewrite mul1r addr0.
  rewrite mul0r add0r. by case: (i == j).
split; [split|split; [|split; [|split]]].
- move=> i j H. rewrite Q ltnNge (ltnW H) /=. by have -> : (i == j) = false by apply/negP => /eqP E; rewrite E ltnn in H.
- move=> i. by rewrite Q ltnn eqxx.
- case=> U D. apply/matrixP => i j. rewrite Q. case: (ltnP i j) => // H. case: eqP => [->|E]; first by rewrite D. rewrite U // ltn_neqAle H andbT. by apply/eqP => /val_inj /esym.
- move=> i j H. by rewrite Q H.
- move=> i j H. by rewrite mxE leqNgt H /= mul0r.
- move=> U. apply/matrixP => i j. rewrite mxE. case: (leqP i j) => H; first by rewrite mul1r. by rewrite mul0r U.
Qed.

Lemma pool_cov n (D : 'rV[F]_n) (C : 'M[F]_n) : (\matrix_(i, j) (C^T i j * (map_mx ex D) 0 j)) *m C = cov_of D C.
Proof. congr (_ *m _). apply/matrixP => i j. rewrite mul_mx_diag. by rewrite !mxE. Qed.
Lemma posdef1 n : posdef (1%:M : 'M[F]_n).
Proof. split; first exact: trmx1. move=> v N. have G := form_id_ge0 v. rewrite lt_neqAle G andbT. apply/eqP => /esym /form_id E. by rewrite E eqxx in N. Qed.
(** C106: the pooling layer with a full covariance never fails and gives the posterior of all the frames: with the trained covariance S of the
    likelihoods and non-negative weights, its mean, log-variances and chol (with ones in the diagonal) are those of the Gaussian whose density
    is proportional to the standard normal prior times the likelihoods N(x_i S, S), each to the power of its weight. *)
Theorem C106_pool : forall n m (D : 'rV[F]_n) (C : 'M[F]_n) (x : 'I_m -> 'rV[F]_n) (w : 'I_m -> F), unit_upper C -> (forall i, 0 <= w i) ->
  exists mu lv C', const_cov_pool ln ex D C x w = ok (mu, lv, C') /\ unit_upper C' /\
    exists k, forall y, normal ex c y mu lv C' = ok (k - (log_gauss 1%:M 0 y + \sum_i w i * log_gauss (invmx (cov_of D C)) (x i *m cov_of D C) y)).
Proof.
move=> n m D C x w U W. have V := unit_upper_unit U. set S := cov_of D C.
have PS : posdef S := cov_posdef D V. have PP : posdef (invmx S) := posdef_inv PS. set P := invmx S in PP *.
set N := \sum_i w i. have N0 : 0 <= N by apply: sumr_ge0 => i _.
have PL : posdef (1%:M + N *: P) by apply: posdefD; [exact: posdef1|apply: possemiZ => //; exact: posdef_semi]. set L := 1%:M + N *: P in PL *.
have PC := posdef_inv PL. case: (chol_complete PC) => R ER. case: (chol_sound PC.1 ER) => RU [RD RR].
have E1 : 2%:R^-1 *: (invmx L + (invmx L)^T) = invmx L.
  rewrite PC.1 -mulr2n -scaler_nat scalerA mulVf ?scale1r //. exact: two_neq0.
rewrite /const_cov_pool pool_cov /kinv (posdef_unit PS) /= -/S -/P -/N -/L (posdef_unit PL) /= E1 /cholesky ER /=.
set gamma := \sum_i w i *: x i. set lv := \row_i _. set C' := \matrix_(i, j) _. exists (gamma *m invmx L), lv, C'. split=> //.
have RN : forall i, R i i != 0 by move=> i; rewrite gt_eqF.
have U' : unit_upper C'.
  split=> [i j H|i]; first by rewrite mxE RU // mul0r. by rewrite mxE mxE mulfV // RN.
split=> //.
have EC : cov_of lv C' = invmx L.
  rewrite -RR. have K : C' = diag_mx (\row_i (R i i)^-1) *m R.
    apply/matrixP => i j. rewrite mul_diag_mx. rewrite !mxE mulrC. by [].
  rewrite /cov_of K trmx_mul tr_diag_mx -!mulmxA. congr (_ *m _). rewrite !mulmxA !diag_mul. 
  have -> : had (had (\row_i (R i i)^-1) (map_mx ex lv)) (\row_i (R i i)^-1) = const_mx 1; last by rewrite diag_one mul1mx.
  apply/rowP => i. rewrite !mxE. have -> : 2%:R * ln (R i i) = ln (R i i) + ln (R i i) by rewrite mulr_natl mulr2n.
  rewrite exD ex_ln //. have Q : forall r : F, r != 0 -> r^-1 * (r * r) * r^-1 = 1 by move=> r r0; rewrite mulrA mulVf // mul1r mulfV. exact: Q.
have EL : invmx (cov_of lv C') = L by rewrite EC invmxK.
have FP : forall i y, form P (y - x i *m S) (y - x i *m S) = form P y y - 2%:R * dot (x i) y + form P (x i *m S) (x i *m S).
  move=> i y. rewrite form_sub ?PP.1 //. by rewrite [form P (x i *m S) y]form_dot /P mulmxK // posdef_unit.
have SD : forall y, \sum_i w i * dot (x i) y = dot gamma y.
  move=> y. rewrite /dot /gamma mulmx_suml summxE. apply: eq_bigr => i _. by rewrite -scalemxAl [in RHS]mxE.
have SL : forall y, \sum_i w i * log_gauss P (x i *m S) y =
    N * (2%:R^-1 * (ln (\det P) - n%:R * c - form P y y)) + dot gamma y - 2%:R^-1 * \sum_i w i * form P (x i *m S) (x i *m S).
  move=> y. rewrite -SD /N mulr_suml mulr_sumr -big_split -sumrB /=. apply: eq_bigr => i _. rewrite /GaussLa.log_gauss FP.
  have Q : forall w a b d e f : F, w * (2%:R^-1 * (a - b - (d - 2%:R * e + f))) = w * (2%:R^-1 * (a - b - d)) + w * e - 2%:R^-1 * (w * f) by ff. exact: Q.
exists (- (2%:R^-1 * (ln (\det L) - n%:R * c - form (invmx L) gamma gamma)) + 2%:R^-1 * (ln (\det (1%:M : 'M[F]_n)) - n%:R * c) +
        N * (2%:R^-1 * (ln (\det P) - n%:R * c)) - 2%:R^-1 * \sum_i w i * form P (x i *m S) (x i *m S)).
move=> y. rewrite C106_normal // EL. congr (Verif.Base.Ok _). rewrite SL /GaussLa.log_gauss (sq_complete gamma y PL) subr0.
have FL : form L y y = form 1%:M y y + N * form P y y by rewrite formPD formPZ.
rewrite FL. set a := ln (\det L). set b := n%:R * c. set d := form 1%:M y y. set e := form P y y. set f := dot gamma y. set g := form (invmx L) gamma gamma.
set h := ln (\det 1%:M). set k := ln (\det P). set l := \sum_i w i * _.
have Q : forall a b d e f g h k l N : F, - (2%:R^-1 * (a - b - (d + N * e - 2%:R * f + g))) =
   - (2%:R^-1 * (a - b - g)) + 2%:R^-1 * (h - b) + N * (2%:R^-1 * (k - b)) - 2%:R^-1 * l
   - (2%:R^-1 * (h - b - d) + (N * (2%:R^-1 * (k - b - e)) + f - 2%:R^-1 * l)) by ff.
exact: Q.
Qed.
(** C106: the layer that multiplies by a trained covariance gives a mean that is not the input times the covariance that it returns; it is when
    chol is the identity or all the variances are the same (as they are initially). *)
Theorem C106_mult_const_cov_refuted : exists (D : 'rV[F]_2) (C : 'M[F]_2) x mu lv C', unit_upper C /\
  mult_const_cov ln ex D C x = (mu, lv, C') /\ mu <> x *m cov_of lv C'.
Proof.
pose C : 'M[F]_2 := \matrix_(i, j) (if (i <= j)%N then 1 else 0).
have U : unit_upper C by split=> [i j H|i]; rewrite mxE ?leqnn // leqNgt H.
pose D : 'rV[F]_2 := \row_j (if j == 0 then 0 else ln 2%:R). pose x : 'rV[F]_2 := delta_mx 0 0.
exists D, C, x. do 3 eexists. split=> //. split; first by rewrite /mult_const_cov. rewrite -/D.
set lv := \row_j _. move=> /rowP /(_ 1).
have L0 : ex (lv 0 0) = 2%:R^-1.
  rewrite !mxE eqxx ex_opp ex_0 ex_ln; last by rewrite addr_gt0 ?ltr01. by rewrite -mulr2n.
have L1 : ex (lv 0 1) = 3%:R^-1.
  have P2 : 0 < 2%:R :> F by rewrite ltr0n. have P3 : 0 < 1 + 2%:R :> F by rewrite addr_gt0 ?ltr01.
  by rewrite !mxE /= ex_opp [ex (ln 2%:R)]ex_ln // ex_ln // -(natrD _ 1 2).
have E : forall M : 'M[F]_2, (x *m M) 0 1 = M 0 1 by move=> M; rewrite /x -rowE mxE.
have CE : forall i j : 'I_2, C i j = if (i <= j)%N then 1 else 0 by move=> i j; rewrite mxE.
have A : forall M N : 'M[F]_2, (M *m N) 0 1 = M 0 0 * N 0 1 + M 0 1 * N 1 1.
  move=> M N. rewrite mxE !big_ord_recl big_ord0 addr0. congr (_ * _ + _ * _); congr (_ _ _); exact: val_inj.
have DE : forall j, (C^T *m diag_mx (map_mx ex lv)) 0 j = C j 0 * ex (lv 0 j).
  move=> j. rewrite mul_mx_diag. by rewrite [LHS]mxE [C^T _ _]mxE [map_mx _ _ _ _]mxE.
have BE : forall i j, (\matrix_(i, j) ((map_mx ex lv) 0 j * C i j)) i j = ex (lv 0 j) * C i j.
  move=> i j. by rewrite [LHS]mxE [map_mx _ _ _ _]mxE.
have TE : forall j, C^T 0 j = C j 0 by move=> j; rewrite [LHS]mxE.
rewrite !E /cov_of (A C^T) (A (C^T *m diag_mx (map_mx ex lv))) !DE !BE !TE !CE /= L0 L1 !mulr1 !mul1r !mul0r !addr0 => /eqP.
rewrite (inj_eq invr_inj) eqr_nat. by [].
Qed.
Theorem C106_mult_const_cov : forall n (D : 'rV[F]_n) (C : 'M[F]_n) x, C = 1%:M \/ (forall i j, D 0 i = D 0 j) ->
  let: (mu, lv, C') := mult_const_cov ln ex D C x in C' = C /\ mu = x *m cov_of lv C' /\ forall j, ex (lv 0 j) = 1 / (1 + ex (D 0 j)).
Proof.
move=> n D C x H. rewrite /mult_const_cov. split=> //. set lv := \row_j _. split; last first.
  move=> j. rewrite /lv mxE ex_opp ex_ln ?div1r //. by rewrite addr_gt0 ?ltr01 ?ex_gt0.
congr (_ *m _). rewrite /cov_of -mulmxA. congr (_ *m _). apply/matrixP => i j. rewrite [LHS]mxE mul_diag_mx. rewrite [RHS]mxE ![map_mx _ _ _ _]mxE.
case: H => [->|H].
  rewrite !mxE. case: (i =P j) => [->|] //. by rewrite !mulr0n !mulr0.
congr (ex _ * _). by rewrite !mxE (H i j).
Qed.

(** C106: kl_normal_vs_std_normal and kl_normal_vs_diag_normal are the cross-entropy minus the entropy divided by beta; with beta 1 they are the
    Kullback-Leibler divergence, and so not negative. [A] is any root of the covariance; Ex is the expectation of a quadratic function. *)
Lemma diag_inv n (lv : 'rV[F]_n) : var_diag lv \in unitmx /\ invmx (var_diag lv) = diag_mx (map_mx (fun v => ex (- v)) lv).
Proof. apply: diag_unit. apply/rowP => j. by rewrite !mxE ex_opp mulfV // ex_neq0. Qed.
Lemma unit_upper1 n : unit_upper (1%:M : 'M[F]_n).
Proof. split=> [i j H|i]; rewrite mxE; last by rewrite eqxx. by have -> : (i == j) = false by apply/negP => /eqP E; rewrite E ltnn in H. Qed.
Lemma var_cov n (lv : 'rV[F]_n) : var_diag lv = cov_of lv 1%:M. Proof. by rewrite /cov_of trmx1 mul1mx mulmx1. Qed.
Lemma var_posdef n (lv : 'rV[F]_n) : posdef (var_diag lv). Proof. rewrite var_cov. exact: cov_posdef (unitmx1 _ _). Qed.
Lemma ln_det_var n (lv : 'rV[F]_n) : ln (\det (invmx (var_diag lv))) = - (\sum_j lv 0 j).
Proof. by rewrite (ln_det_inv log_of_exp (var_posdef lv)) var_cov ln_det_cov //; exact: unit_upper1. Qed.
Lemma form_diag1 n (d v : 'rV[F]_n) : form (diag_mx d) v v = \sum_j d 0 j * v 0 j ^+ 2.
Proof. rewrite /form mul_mx_diag mxE. apply: eq_bigr => j _. rewrite !mxE expr2. have Q : forall a b : F, a * b * a = b * (a * a) by fr. exact: Q. Qed.
Lemma tr_diag2 n (a b : 'rV[F]_n) : \tr (diag_mx a *m diag_mx b) = \sum_j a 0 j * b 0 j.
Proof. rewrite diag_mul mxtrace_diag. apply: eq_bigr => j _. by rewrite mxE. Qed.
Theorem C106_kl_diag : forall n (m1 l1 m2 l2 : 'rV[F]_n) beta (A : 'M[F]_n), root_of A (invmx (var_diag l1)) ->
  kl_diag ex c m1 l1 m2 l2 beta =
    (- Ex A m1 (log_gauss (invmx (var_diag l2)) m2)) - 1 / beta * (- Ex A m1 (log_gauss (invmx (var_diag l1)) m1)).
Proof.
move=> n m1 l1 m2 l2 beta A RA. rewrite !Ex_gauss !(root_tr _ RA) !ln_det_var subrr form0l mulmxV ?unitmx_inv ?(diag_inv l1).1 // mxtrace1 invmxK.
rewrite (diag_inv l2).2 form_diag1 tr_diag2 /kl_diag. set T := 1 / beta.
set e2 := map_mx (fun v => ex (- v)) l2.
have E : \sum_j ((T - 1) * c + T + T * l1 0 j - l2 0 j - ((m1 0 j - m2 0 j) ^+ 2 + (map_mx ex l1) 0 j) / (map_mx ex l2) 0 j) =
   n%:R * ((T - 1) * c + T) + T * (\sum_j l1 0 j) - (\sum_j l2 0 j) - (\sum_j e2 0 j * (m1 - m2) 0 j ^+ 2) - (\sum_j e2 0 j * (map_mx ex l1) 0 j).
  rewrite [T * _]mulr_sumr -!sumrN mulr_natl -[n in _ *+ n]card_ord -sumr_const -!big_split /=. apply: eq_bigr => j _.
  have E2 : e2 0 j = ((map_mx ex l2) 0 j)^-1 by rewrite !mxE ex_opp.
  have EM : (m1 - m2) 0 j = m1 0 j - m2 0 j by rewrite !mxE.
  rewrite E2 EM. set u := _ ^+ 2. set v := _^-1. set z := map_mx _ _ _ _.
  have Q : forall k a b u v z : F, k + a - b - (u + z) * v = k + a - b - v * u - v * z by fr. exact: Q.
rewrite E. have Q : forall N a b x y T c : F, - 2%:R^-1 * (N * ((T - 1) * c + T) + T * a - b - x - y) =
    - (2%:R^-1 * (- b - N * c - (x + y))) - T * - (2%:R^-1 * (- a - N * c - (0 + N))) by ff. exact: Q.
Qed.
Theorem C106_kl_std : forall n (m l : 'rV[F]_n) beta (A : 'M[F]_n), root_of A (invmx (var_diag l)) ->
  kl_std ex c m l beta = (- Ex A m (log_gauss 1%:M 0)) - 1 / beta * (- Ex A m (log_gauss (invmx (var_diag l)) m)).
Proof.
move=> n m l beta A RA. have Z : var_diag 0 = 1%:M :> 'M[F]_n.
  rewrite /var_diag -diag_one. congr diag_mx. apply/rowP => j. by rewrite !mxE ex_0.
have := C106_kl_diag m 0 0 beta RA. rewrite Z invmx1 => <-. rewrite /kl_std /kl_diag. congr (_ * _). apply: eq_bigr => j _.
rewrite !mxE ex_0 divr1 !subr0. have Q : forall k a b : F, k - a - b = k - (a + b) by fr. exact: Q.
Qed.
Theorem C106_kl_nonneg : log_ok ln -> forall n (m1 l1 m2 l2 : 'rV[F]_n), 0 <= kl_diag ex c m1 l1 m2 l2 1 /\ kl_diag ex c m1 l1 m1 l1 1 = 0 /\ 0 <= kl_std ex c m1 l1 1.
Proof.
move=> LO n m1 l1 m2 l2. have P1 := posdef_inv (var_posdef l1). case: (root_ex P1) => A RA.
have K : forall a b : F, a <= b -> 0 <= - a - 1 / 1 * - b by move=> a b H; rewrite divr1 mul1r opprK addrC subr_ge0.
split; [|split].
- rewrite (C106_kl_diag m1 m2 l2 1 RA). apply: K. apply: gibbs => //. exact: posdef_inv (var_posdef l2).
- rewrite (C106_kl_diag m1 m1 l1 1 RA) divr1 mul1r opprK addNr. by [].
- rewrite (C106_kl_std m1 1 RA). apply: K. apply: gibbs => //. exact: posdef1.
Qed.
End P.
Print Assumptions C106_normal.
Print Assumptions C106_diag_normal.
Print Assumptions C106_sampler.
Print Assumptions C106_var_chol_refuted.
Print Assumptions C106_triu.
Print Assumptions C106_pool.
Print Assumptions C106_mult_const_cov_refuted.
Print Assumptions C106_mult_const_cov.
Print Assumptions C106_kl_diag.
Print Assumptions C106_kl_std.
Print Assumptions C106_kl_nonneg.

From Verif Require Import RInst.
From Coq Require Reals.
(** the hypotheses are met: the real exponential (GmmFullProps.real_exp_ok) and a correlated chol *)
Example C106_witness : @exp_ok R_rcfType Rpower.ln Rtrigo_def.exp /\ exists C : 'M[R_rcfType]_2, unit_upper C /\ C <> 1%:M.
Proof.
split; first exact: real_exp_ok. exists (\matrix_(i, j) (if (i <= j)%N then 1 else 0)). split; first by split=> [i j H|i]; rewrite mxE ?leqnn // leqNgt H.
move=> /matrixP /(_ 0 1). rewrite !mxE /= => /eqP. by rewrite oner_eq0.
Qed.
