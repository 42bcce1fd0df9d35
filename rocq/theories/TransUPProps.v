(** Transforms with uncertainty propagation (C110). *)
From Verif Require Import LinTrans LinTransProps RingF TransUP.
Set Warnings "-notation-overridden,-ambiguous-paths".
From mathcomp Require Import all_ssreflect all_algebra.
Set Implicit Arguments. Unset Strict Implicit. Unset Printing Implicit Defensive.
Import Order.TTheory GRing.Theory Num.Theory.
Local Open Scope ring_scope.

Section Spec.
Variable F : rcfType.
Add Ring FRing' : (F_ring F). Add Ring FZRing' : (F_zring F). Add Field FField' : (F_field F). Add Field FZField' : (F_zfield F).
(** ** Specification: the variances of the coordinates of x T when the coordinates of x are uncorrelated with variances s *)
Definition var_after {n k} (T : 'M[F]_(n, k)) (s : 'rV[F]_n) : 'rV[F]_k := \row_j (T^T *m diag_mx s *m T) j j.

Lemma at0_ord {m n} (A : 'M[F]_(m, n)) i (j : 'I_n) : at0 A i j = A i j.
Proof. rewrite /at0. by rewrite valK. Qed.
Lemma at0_out {m n} (A : 'M[F]_(m, n)) i j : (n <= j)%N -> at0 A i j = 0.
Proof. move=> H. rewrite /at0 insubF //. by rewrite ltnNge H. Qed.
Lemma at0_lt {m n} (A : 'M[F]_(m, n)) i j (H : (j < n)%N) : at0 A i j = A i (Ordinal H).
Proof. by rewrite -[j]/(nat_of_ord (Ordinal H)) at0_ord. Qed.
Lemma var_after_E {n k} (T : 'M[F]_(n, k)) (s : 'rV[F]_n) j : var_after T s 0 j = \sum_l T l j * s 0 l * T l j.
Proof.
rewrite mxE [LHS]mxE. apply: eq_bigr => l _. congr (_ * _). rewrite [LHS]mxE (bigD1 l) //= big1 ?addr0.
  by rewrite [X in X * _]mxE [X in _ * X]mxE eqxx mulr1n.
move=> c C. by rewrite [X in _ * X]mxE (negbTE C) mulr0n mulr0.
Qed.
Lemma diag_prop_E {N n k} (T : 'M[F]_(n, k)) (S2 : 'M[F]_(N, n)) i (j : 'I_k) : diag_prop T S2 i j = var_after T (row i S2) 0 j.
Proof.
rewrite var_after_E /diag_prop. apply: eq_bigr => l _. rewrite [row _ _ _ _]mxE !at0_ord. congr (_ * _ * _).
case: eqP => E; last by rewrite at0_ord. subst n. by rewrite ord1 -[0%N]/(nat_of_ord (0 : 'I_1)) at0_ord.
Qed.

(** predict with a square T: the first half is centred and multiplied by T, and each row of variances becomes the variances after T; the
    caller's array keeps its means and gets the new variances written into it. *)
Theorem C110_predict {N n} (mu : option 'rV[F]_n) (T : 'M[F]_n) (X : 'M[F]_(N.+1, n + n)) :
  let V := \matrix_(i, j) var_after T (row i (rsubmx X)) 0 j in
  let m := (if mu is Some mu then sub_row (lsubmx X) mu else lsubmx X) *m T in
  up_predict mu (MatT T) X = ok (existT _ (n + n)%N (row_mx m V), row_mx (lsubmx X) V).
Proof.
move=> V m. rewrite /up_predict /= eqxx /=.
have -> : (\matrix_(i, j) diag_prop T (rsubmx X) i (if n == 1%N then 0%N else j)) = V.
  apply/matrixP => i j. rewrite [LHS]mxE [RHS]mxE -diag_prop_E. congr (diag_prop _ _ _ _). case: eqP => E //. subst n. by rewrite ord1.
by [].
Qed.
(** The means and variances so computed are those of the transformed data: for any sample Z with the mean and the (diagonal) covariance of a
    row, the new row holds the mean and the variances of the transformed sample. *)
Theorem C110_moments {N M n} (mu : 'rV[F]_n) (T : 'M[F]_n) (X : 'M[F]_(N.+1, n + n)) (Z : 'M[F]_(M.+1, n)) i :
  mean Z = row i (lsubmx X) -> cov Z = diag_mx (row i (rsubmx X)) ->
  exists Y X', up_predict (Some mu) (MatT T) X = ok (existT _ (n + n)%N Y, X') /\
    row i (lsubmx Y) = mean (predict mu T Z) /\ forall j, rsubmx Y i j = cov (predict mu T Z) j j.
Proof.
move=> HM HC. do 2 eexists. split; first exact: C110_predict. rewrite row_mxKl row_mxKr. split.
  rewrite mean_predict HM row_mul. congr (_ *m _). apply/rowP => j. by rewrite !mxE.
move=> j. by rewrite cov_predict HC [LHS]mxE [LHS]mxE.
Qed.
(** What a call needs: a matrix T with as many columns as variances, and an even width. A single row suffices to see it. *)
Theorem C110_shapes {N h q} (mu : option 'rV[F]_h) (X : 'M[F]_(N.+1, h + q)) :
  (forall k (T : 'M[F]_(h, k)), k <> q -> k <> 1%N -> up_predict mu (MatT T) X = err value_error) /\
  (q = h.+1 -> (0 < h)%N -> forall k (T : 'M[F]_(h, k)), up_predict mu (MatT T) X = err value_error) /\
  (forall t, up_predict mu (VecT t) X = err name_error) /\ up_predict mu (NoT F h) X = err attribute_error.
Proof.
split.
  move=> k T K1 K2. rewrite /up_predict /=. have /negbTE -> : k != q by apply/eqP. have /negbTE -> : k != 1%N by apply/eqP.
  by rewrite andbF.
split; last by split.
move=> Q H k T. subst q. rewrite /up_predict /=. have -> : (h == h.+1) = false by apply/negbTE; rewrite neq_ltn ltnSn. by rewrite eqSS eqn0Ngt H.
Qed.
(** A T with one column is accepted for any even width: the result then has one mean and n copies of its variance. *)
Theorem C110_one_column_refuted {N n} (mu : 'rV[F]_n) (T : 'M[F]_(n, 1)) (X : 'M[F]_(N.+1, n + n)) :
  exists X', up_predict (Some mu) (MatT T) X = ok (existT _ (1 + n)%N (row_mx (predict mu T (lsubmx X)) (\matrix_(i < N.+1, j < n) var_after T (row i (rsubmx X)) 0 0)), X').
Proof.
rewrite /up_predict /= !eqxx orbT /=.
have -> : (\matrix_(i, j) diag_prop T (rsubmx X) i 0) = \matrix_(i < N.+1, j < n) var_after T (row i (rsubmx X)) 0 0 by apply/matrixP => i j; rewrite [LHS]mxE [RHS]mxE -(diag_prop_E T (rsubmx X) i (0 : 'I_1)).
by eexists.
Qed.
(** The variances of the caller's array are overwritten: transforming the same array a second time propagates them twice. *)
Theorem C110_in_place_refuted : exists (T : 'M[F]_1) (X : 'M[F]_(1, 1 + 1)) Y X' Y' X'',
  up_predict None (MatT T) X = ok (existT _ (1 + 1)%N Y, X') /\ X' <> X /\ up_predict None (MatT T) X' = ok (existT _ (1 + 1)%N Y', X'') /\ Y' <> Y.
Proof.
have V1 : forall (T : 'M[F]_1) (s : 'rV[F]_1), var_after T s 0 0 = T 0 0 * s 0 0 * T 0 0.
  move=> T s. by rewrite var_after_E big_ord_recl big_ord0 addr0.
set T : 'M[F]_1 := const_mx 2%:R. set X : 'M[F]_(1, 1 + 1) := const_mx 1.
have T0 : T 0 0 = 2%:R by rewrite mxE.
have X0 : forall j, rsubmx X 0 j = 1 by move=> j; rewrite [rsubmx _ _ _]mxE /X mxE.
set V : 'M[F]_(1, 1) := \matrix_(i, j) var_after T (row i (rsubmx X)) 0 j.
have V0 : V 0 0 = 4%:R by rewrite mxE V1 T0 [row _ _ _ _]mxE X0 mulr1 -natrM.
exists T, X. do 4 eexists. split; first exact: C110_predict. split.
  move=> /matrixP /(_ 0 (rshift 1 (0 : 'I_1))) /eqP. rewrite row_mxEr -/V V0 /X mxE pnatr_eq1. by [].
split; first exact: C110_predict. rewrite row_mxKl row_mxKr -/V.
move=> /matrixP /(_ 0 (rshift 1 (0 : 'I_1))) /eqP. rewrite !row_mxEr V0 [X in X == _]mxE V1 T0 [row _ _ _ _]mxE V0 -!natrM eqr_nat. by [].
Qed.
(** fit looks at the first half only, and whitens it: after predict the training means have zero mean and identity covariance. *)
Theorem C110_fit_transform {N n q} chol eigh (X : 'M[F]_(N, n.+1 + q)) mu k (T : 'M[F]_(n.+1, k)) : (n.+1 < N)%N ->
  (forall S, is_chol S (chol S)) -> is_eigh (cov (lsubmx X)) (eigh (cov (lsubmx X))) ->
  up_fit chol eigh X = ok (mu, existT _ k T) -> k = n.+1 /\ mean (predict mu T (lsubmx X)) = 0 /\ cov (predict mu T (lsubmx X)) = 1%:M.
Proof. rewrite /up_fit => L CH E H. by have [? [_ [? ?]]] := C65_fit_transform L CH E H. Qed.
Theorem C110_fit_variances {N n q} chol eigh (X X' : 'M[F]_(N, n.+1 + q)) : lsubmx X = lsubmx X' -> up_fit chol eigh X = up_fit chol eigh X'.
Proof. by rewrite /up_fit => ->. Qed.

(** ** Length normalisation *)
Lemma half_add n : ((n + n)./2 = n)%N. Proof. by rewrite addnn doubleK. Qed.
Lemma norm2_part {N n} (A : 'M[F]_(N, n + n)) i : norm2 (row i (part 0 (n + n)./2 A)) = norm2 (row i (lsubmx A)).
Proof.
rewrite /norm2. transitivity (\sum_(j < (n + n)./2) at0 A i j ^+ 2).
  apply: eq_bigr => j _. by rewrite [row _ _ _ _]mxE [part _ _ _ _ _]mxE add0n.
rewrite half_add. apply: eq_bigr => j _. rewrite [row _ _ _ _]mxE [lsubmx _ _ _]mxE. by rewrite -at0_ord.
Qed.
Lemma lnorm_rows_E {N n} eps (A : 'M[F]_(N, n + n)) : let c i := norm2 (row i (lsubmx A)) + eps in
  lnorm_rows eps A = row_mx (\matrix_(i, j) (lsubmx A i j / Num.sqrt (c i))) (\matrix_(i, j) (rsubmx A i j / c i)).
Proof.
move=> c. apply/matrixP => i j. rewrite [LHS]mxE norm2_part -/(c i) half_add. case: (split_ordP j) => l ->.
  rewrite row_mxEl [RHS]mxE. by rewrite [lsubmx _ _ _]mxE.
rewrite row_mxEr [RHS]mxE. by rewrite [rsubmx _ _ _]mxE.
Qed.
(** LNormUP scales the whitened mean m of a row by some s > 0 and its variances v by s^2 (so standard deviations scale with the mean), and
    the squared length of the result is |m|^2 / (|m|^2 + 1e-10), which is below 1. *)
Theorem C110_lnorm {N n} eps (mu : option 'rV[F]_n) (T : 'M[F]_n) (X : 'M[F]_(N.+1, n + n)) : 0 < eps ->
  exists Y X' L, up_predict mu (MatT T) X = ok (existT _ (n + n)%N Y, X') /\ lnorm_up_predict eps mu (MatT T) X = ok (existT _ (n + n)%N L, X') /\
  forall i, let m := row i (lsubmx Y) in exists s, 0 < s /\ row i (lsubmx L) = s *: m /\ row i (rsubmx L) = s ^+ 2 *: row i (rsubmx Y) /\
    norm2 (row i (lsubmx L)) = norm2 m / (norm2 m + eps) /\ norm2 (row i (lsubmx L)) < 1.
Proof.
move=> E. rewrite /lnorm_up_predict C110_predict /=. do 3 eexists. split; first by []. split; first by [].
move=> i. rewrite lnorm_rows_E !row_mxKl !row_mxKr. set Y := _ *m _. set m := row i Y. set c := norm2 m + eps.
have Q0 : 0 <= norm2 m by apply: sumr_ge0 => j _; exact: sqr_ge0.
have C0 : 0 < c by apply: ltr_paddl. have S0 : 0 < Num.sqrt c by rewrite sqrtr_gt0.
exists (Num.sqrt c)^-1. split; first by rewrite invr_gt0.
have RE : row i (\matrix_(i0, j) (Y i0 j / Num.sqrt (norm2 (row i0 Y) + eps))) = (Num.sqrt c)^-1 *: m.
  apply/rowP => j. rewrite [LHS]mxE [LHS]mxE [RHS]mxE /m [row _ _ _ _]mxE -/m -/c. by rewrite mulrC.
have NE : norm2 ((Num.sqrt c)^-1 *: m) = norm2 m / c.
  rewrite /norm2 mulr_suml. apply: eq_bigr => j _. by rewrite [X in X ^+ 2]mxE exprMn exprVn sqr_sqrtr ?ltW // mulrC.
rewrite RE NE. split=> //. split.
  apply/rowP => j. rewrite [LHS]mxE [LHS]mxE -/m -/c [RHS]mxE [row _ _ _ _]mxE. by rewrite exprVn sqr_sqrtr ?ltW // mulrC.
split=> //. by rewrite ltr_pdivr_mulr // mul1r /c ltr_addl.
Qed.
(** LNorm without uncertainty gives another length: for a mean of four or more dimensions, no shorter than eps, its squared length is at
    least 1, while LNormUP's is below 1. *)
Theorem C110_lnorm_scale_refuted {N n} eps (mu : 'rV[F]_n) (T : 'M[F]_n) (X : 'M[F]_(N.+1, n + n)) i : 0 < eps -> (4 <= n)%N ->
  eps <= Num.sqrt (norm2 (row i (predict mu T (lsubmx X)))) ->
  exists L X' L', lnorm_up_predict eps (Some mu) (MatT T) X = ok (existT _ (n + n)%N L, X') /\
    lnorm_predict eps (Some mu) (MatT T) (lsubmx X) = ok (existT _ n L') /\ norm2 (row i (lsubmx L)) < 1 /\ 1 <= norm2 (row i L').
Proof.
move=> E N4 LE. have [Y [X' [L [HY [HL HI]]]]] := C110_lnorm (Some mu) T X E.
exists L, X', (lnorm eps (predict mu T (lsubmx X))). split=> //. split=> //. split; first by have [s [_ [_ [_ [_ ?]]]]] := HI i.
have [s [_ [_ [_ [_ HE]]]]] := C67_lnorm (predict mu T (lsubmx X)) i E.
move: HE LE. set x := row i (predict mu T (lsubmx X)). set y := row i (lnorm _ _) => HE LE.
have Q0 : 0 <= norm2 x by apply: sumr_ge0 => j _; exact: sqr_ge0.
set r := Num.sqrt (norm2 x) in HE LE. have R0 : 0 < r by exact: lt_le_trans E LE.
have NX : norm2 x = r ^+ 2 by rewrite sqr_sqrtr.
have T0 : 0 < (r + eps) ^+ 2 by rewrite exprn_gt0 // addr_gt0.
rewrite -(ler_pmul2r T0) mul1r HE NX. apply: (@le_trans _ _ ((r + r) ^+ 2)).
  by rewrite ler_sqr ?nnegrE ?ler_add2l // ltW // addr_gt0.
have -> : (r + r) ^+ 2 = 4%:R * r ^+ 2 by rewrite -mulr2n -[r *+ 2]mulr_natl exprMn -natrX.
apply: ler_wpmul2r; first exact: sqr_ge0. by rewrite ler_nat.
Qed.
End Spec.

(** ** The Gaussian back-end with uncertainty: every evaluation and every fit fails. *)
Theorem C110_gbe_refuted {V : Type} (rest : nat -> res V) (norm : V -> V) meth normalize width : meth <> OtherMethod ->
  gbe_up_fit rest width = err type_error /\
  gbe_up_predict rest norm meth normalize width = err (if meth is Linear' then type_error else not_implemented).
Proof. by case: meth. Qed.
(** The slice of the transforms, which wraps the division in int(), is an integer: half the width, rounded down. *)
Theorem C110_half width : upto (to_int (true_div width 2)) width = ok (width./2) /\ (width - width./2 = width./2 \/ width - width./2 = width./2.+1)%N.
Proof.
split.
  rewrite /= divn2. congr ok. apply/minn_idPl. rewrite -[X in (_ <= X)%N]odd_double_half -addnn. apply: (@leq_trans (width./2 + width./2)); [exact: leq_addr|exact: leq_addl].
have := odd_double_half width. move: (width./2) (odd width) => h b <-. rewrite -addnn. case: b; rewrite /= ?add0n.
  right. by rewrite addnA addnK add1n.
left. by rewrite addnK.
Qed.

(** ** Witnesses *)
Section Witness.
Variable F : rcfType.
(** a sample with a diagonal covariance, and the row that describes it *)
Example C110_moments_witness : mean (two F) = row (0 : 'I_1) (lsubmx (row_mx 0 (const_mx 1) : 'M[F]_(1, 1 + 1))) /\
  cov (two F) = diag_mx (row (0 : 'I_1) (rsubmx (row_mx 0 (const_mx 1) : 'M[F]_(1, 1 + 1)))).
Proof.
rewrite row_mxKl row_mxKr two_mean two_cov. split; first by apply/rowP => j; rewrite !mxE.
apply/matrixP => a b. by rewrite !ord1 !mxE eqxx mulr1n.
Qed.
Example C110_lnorm_scale_witness : let X : 'M[F]_(1, 4 + 4) := const_mx 1 in 0 < (1 : F) /\ (4 <= 4)%N /\
  1 <= Num.sqrt (norm2 (row 0 (predict 0 1%:M (lsubmx X)))).
Proof.
move=> X. split; first exact: ltr01. split=> //. have -> : norm2 (row 0 (predict 0 1%:M (lsubmx X))) = 2%:R ^+ 2.
  rewrite /norm2 /predict mulmx1. rewrite -natrX. transitivity (\sum_(j < 4) (1 : F)).
    apply: eq_bigr => j _. by rewrite [row _ _ _ _]mxE [sub_row _ _ _ _]mxE [lsubmx _ _ _]mxE [X _ _]mxE [X in 1 - X]mxE subr0 expr1n.
  by rewrite sumr_const card_ord.
by rewrite sqrtr_sqr ger0_norm ?ler0n // ler1n.
Qed.
End Witness.
Print Assumptions C110_moments. Print Assumptions C110_in_place_refuted. Print Assumptions C110_lnorm. Print Assumptions C110_lnorm_scale_refuted. Print Assumptions C110_half.
