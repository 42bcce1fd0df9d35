(** Whitening and principal components (C65), discriminant analysis (C66), and the simpler transforms (C67). *)
From Verif Require Import LinTrans RingF.
Set Warnings "-notation-overridden,-ambiguous-paths".
From mathcomp Require Import all_ssreflect all_algebra.
Set Implicit Arguments. Unset Strict Implicit. Unset Printing Implicit Defensive.
Import Order.TTheory GRing.Theory Num.Theory.
Local Open Scope ring_scope.

Section Spec.
Variable F : rcfType.
Add Ring FRing' : (F_ring F). Add Ring FZRing' : (F_zring F). Add Field FField' : (F_field F). Add Field FZField' : (F_zfield F).
(** ** Specification *)
(** la.eigh(C): orthonormal eigenvectors in the columns of V, eigenvalues d in ascending order *)
Definition is_eigh {n} (C : 'M[F]_n) (dV : 'rV[F]_n * 'M[F]_n) : Prop :=
  dV.2^T *m dV.2 = 1%:M /\ C *m dV.2 = dV.2 *m diag_mx dV.1 /\ (forall i j : 'I_n, (i <= j)%N -> dV.1 0 i <= dV.1 0 j).
(** la.eigh(A, B): B-orthonormal solutions of A v = d B v, ascending *)
Definition is_geigh {n} (A B : 'M[F]_n) (dV : 'rV[F]_n * 'M[F]_n) : Prop :=
  dV.2^T *m B *m dV.2 = 1%:M /\ A *m dV.2 = B *m dV.2 *m diag_mx dV.1 /\ (forall i j : 'I_n, (i <= j)%N -> dV.1 0 i <= dV.1 0 j).
(** la.cholesky(S, lower=False): the upper triangular factor, if S is positive definite *)
Definition is_chol {n} (S : 'M[F]_n) (r : option 'M[F]_n) : Prop :=
  if r is Some R then R^T *m R = S /\ R \in unitmx else True.
(** covariance of the rows of X around their mean *)
Definition cov {N n} (X : 'M[F]_(N, n)) : 'M[F]_n :=
  \matrix_(a, b) ((\sum_i (X i a - mean X 0 a) * (X i b - mean X 0 b)) / N%:R).
(** the eigenvalues in descending order *)
Definition descending {n} (d : 'rV[F]_n.+1) (j : nat) : F := d 0 (rev_ord (inord j)).

(** ** Columns of an eigenbasis *)
Lemma mulmx_entry {m n p q} (A : 'M[F]_(m, n)) (B : 'M[F]_(n, p)) (C : 'M[F]_(p, q)) i j :
  (A *m B *m C) i j = \sum_k \sum_l A i l * B l k * C k j.
Proof. rewrite mxE. apply: eq_bigr => k _. rewrite mxE big_distrl /=. by []. Qed.
Lemma picked {m n k} (A : 'M[F]_m) (V : 'M[F]_(m, n)) (T : 'M[F]_(m, k)) (c : 'I_k -> F) (g : 'I_k -> 'I_n) :
  (forall i j, T i j = c j * V i (g j)) -> forall i j, (T^T *m A *m T) i j = c i * c j * (V^T *m A *m V) (g i) (g j).
Proof.
move=> H i j. rewrite !mulmx_entry big_distrr /=. apply: eq_bigr => a _. rewrite big_distrr /=. apply: eq_bigr => b _.
rewrite !mxE !H. have R : forall u v w x y : F, u * v * w * (x * y) = u * x * (v * w * y) by move=> *; fnorm; ring.
exact: R.
Qed.
Lemma picked1 {m n k} (V : 'M[F]_(m, n)) (T : 'M[F]_(m, k)) (c : 'I_k -> F) (g : 'I_k -> 'I_n) :
  (forall i j, T i j = c j * V i (g j)) -> forall i j, (T^T *m T) i j = c i * c j * (V^T *m V) (g i) (g j).
Proof. move=> H i j. have := picked (1%:M) H i j. by rewrite !mulmx1. Qed.
Definition sgn (x : F) : F := if x < 0 then -1 else 1.
Lemma sgn2 x : sgn x * sgn x = 1.
Proof. rewrite /sgn; case: ifP => _; by rewrite ?mulrNN mulr1. Qed.
Lemma fix_signs_E {m n} (V : 'M[F]_(m.+1, n)) i j : fix_signs V i j = sgn (V ord0 j) * V i j.
Proof. rewrite mxE /sgn; case: ifP => _; by rewrite ?mulN1r ?mul1r. Qed.
Lemma fix_signs_pos {m n} (V : 'M[F]_(m.+1, n)) j : 0 <= fix_signs V ord0 j.
Proof. rewrite mxE. case: (ltP (V ord0 j) 0) => H //. rewrite oppr_ge0. exact: ltW. Qed.
Lemma eigh_diag {n} (A B : 'M[F]_n) dV : is_geigh A B dV -> dV.2^T *m A *m dV.2 = diag_mx dV.1.
Proof. case=> H1 [H2 _]. by rewrite -mulmxA H2 !mulmxA H1 mul1mx. Qed.
Lemma eigh_geigh {n} (C : 'M[F]_n) dV : is_eigh C dV -> is_geigh C 1%:M dV.
Proof. case=> H1 [H2 H3]. split; first by rewrite mulmx1. split; by rewrite ?mul1mx. Qed.

(** ** C65 Whitening *)
(** The whitening matrix made from C turns C into the identity; it has one column per positive eigenvalue. *)
Theorem C65_whiten {n} (C : 'M[F]_n.+1) d V : is_eigh C (d, V) ->
  let T := projT2 (whiten_T d V) in T^T *m C *m T = 1%:M /\ projT1 (whiten_T d V) = #|[pred j | 0 < d 0 j]|.
Proof.
move=> E T; split; last first.
  rewrite /whiten_T /= -(card_image (@rev_ord_inj n.+1)). apply: eq_card => j. apply/imageP/idP => [[i H ->]|H]; first by rewrite !inE in H *.
  by exists (rev_ord j); rewrite ?inE rev_ordK //.
have D := eigh_diag (eigh_geigh E). simpl in D.
pose s (j : 'I_n.+1) := sgn (fliplr (scale_cols V (map_mx (fun z => Num.sqrt (1 / z)) d)) ord0 j).
have H : forall i j, T i j = (s (enum_val j) * Num.sqrt (1 / d 0 (rev_ord (enum_val j)))) * V i (rev_ord (enum_val j)).
  move=> i j. rewrite /T /whiten_T /= mxE fix_signs_E -/(s _) !mxE. by rewrite [V _ _ * _]mulrC mulrA.
apply/matrixP => i j. rewrite (picked _ H) D !mxE (inj_eq (@rev_ord_inj _)) (inj_eq enum_val_inj).
case: eqP => [<-|_]; last by rewrite mulr0n mulr0.
rewrite mulr1n. have P : 0 < d 0 (rev_ord (enum_val i)) := enum_valP i.
have := sgn2 (fliplr (scale_cols V (map_mx (fun z => Num.sqrt (1 / z)) d)) ord0 (enum_val i)). rewrite -/(s _) => S.
rewrite mulrACA S mul1r -expr2 sqr_sqrtr; last by rewrite ?div1r invr_ge0; apply: ltW.
by rewrite div1r mulVf // gt_eqF.
Qed.

(** ** Means and covariances under a linear transform *)
Lemma cov_mx {N n} (X : 'M[F]_(N, n)) : cov X = (N%:R)^-1 *: ((sub_row X (mean X))^T *m sub_row X (mean X)).
Proof. apply/matrixP => a b. rewrite !mxE mulrC. congr (_ * _). apply: eq_bigr => i _. by rewrite !mxE. Qed.
Lemma mean_predict {N n k} (mu : 'rV[F]_n) (T : 'M[F]_(n, k)) (X : 'M[F]_(N.+1, n)) : mean (predict mu T X) = (mean X - mu) *m T.
Proof.
apply/rowP => j. rewrite !mxE.
have -> : \sum_i predict mu T X i j = \sum_l (\sum_i X i l - mu 0 l *+ N.+1) * T l j.
  rewrite /predict. under eq_bigr do rewrite mxE. rewrite exchange_big /=. apply: eq_bigr => l _. rewrite -big_distrl /=. congr (_ * _).
  under eq_bigr do rewrite mxE. by rewrite big_split /= sumrN sumr_const card_ord.
rewrite big_distrl /=. apply: eq_bigr => l _. rewrite !mxE mulrAC. congr (_ * _). rewrite mulrBl. congr (_ - _). by rewrite -[mu 0 l *+ _]mulr_natr mulfK // pnatr_eq0.
Qed.
Lemma cov_predict {N n k} (mu : 'rV[F]_n) (T : 'M[F]_(n, k)) (X : 'M[F]_(N.+1, n)) : cov (predict mu T X) = T^T *m cov X *m T.
Proof.
rewrite !cov_mx mean_predict.
have -> : sub_row (predict mu T X) ((mean X - mu) *m T) = sub_row X (mean X) *m T.
  apply/matrixP => i j. rewrite !mxE -sumrB. apply: eq_bigr => l _. rewrite !mxE -mulrBl. congr (_ * _). have R : forall a b c : F, a - b - (c - b) = a - c by move=> *; fnorm; ring. exact: R.
by rewrite trmx_mul -scalemxAr -scalemxAl !mulmxA.
Qed.
Lemma sum_prod m (f g : 'I_m -> F) u v : \sum_i (f i - u) * (g i - v) = (\sum_i f i * g i) - v * (\sum_i f i) - u * (\sum_i g i) + m%:R * (u * v).
Proof.
have R : forall a b : F, (a - u) * (b - v) = a * b + (- v * a + (- u * b + u * v)) by move=> *; fnorm; ring.
under eq_bigr do rewrite R. rewrite !big_split /= sumr_const card_ord -!big_distrr /= mulr_natl. rewrite !mulNr !addrA. by [].
Qed.
Lemma S_cov {N n} (X : 'M[F]_(N.+1, n)) : (N.+1%:R)^-1 *: (X^T *m X) - (mean X)^T *m mean X = cov X.
Proof.
apply/matrixP => a b. rewrite !mxE big_ord1 !mxE.
set A := \sum_i X i a. set B := \sum_i X i b.
have NZ : (N.+1%:R : F) != 0 by rewrite pnatr_eq0.
transitivity ((\sum_i X i a * X i b - A / N.+1%:R * B) / N.+1%:R).
  rewrite mulrBl mulrC. congr (_ * _ - _); last by rewrite mulrA. apply: eq_bigr => i _. by rewrite !mxE.
congr (_ / _). rewrite sum_prod -/A -/B.
have R : forall P u v m : F, m != 0 -> P - u / m * v = P - v / m * u - u / m * v + m * (u / m * (v / m)) by move=> P u v m H; fnorm; field; apply/eqP.
exact: R.
Qed.
Lemma mul_trmx_ge0 {n} (v : 'rV[F]_n) : 0 <= (v *m v^T) 0 0.
Proof. rewrite mxE. apply: sumr_ge0 => i _. rewrite mxE -expr2. exact: sqr_ge0. Qed.
Lemma mul_trmx_eq0 {n} (v : 'rV[F]_n) : (v *m v^T) 0 0 = 0 -> v = 0.
Proof.
rewrite mxE => H. apply/rowP => i. rewrite mxE. apply/eqP.
have P : forall j, j \in predT -> 0 <= v 0 j * v^T j 0 by move=> j _; rewrite mxE -expr2; exact: sqr_ge0.
have := psumr_eq0P P H (erefl (i \in predT)). move/eqP. by rewrite mxE mulf_eq0 orbb.
Qed.
(** all eigenvalues of R'R are positive when R is invertible *)
Lemma gram_pos {n} (R : 'M[F]_n) d V : R \in unitmx -> is_eigh (R^T *m R) (d, V) -> forall j, 0 < d 0 j.
Proof.
move=> U E j. have D := eigh_diag (eigh_geigh E). case: E => O _. simpl in *.
have VU : V \in unitmx by have := mulmx1_unit O; case.
have Q : d 0 j = (row j (R *m V)^T *m (row j (R *m V)^T)^T) 0 0.
  have -> : d 0 j = (V^T *m (R^T *m R) *m V) j j by rewrite D mxE eqxx mulr1n.
  have -> : V^T *m (R^T *m R) *m V = (R *m V)^T *m (R *m V) by rewrite trmx_mul !mulmxA.
  rewrite !mxE. apply: eq_bigr => i _. by rewrite !mxE.
rewrite lt_neqAle Q mul_trmx_ge0 andbT eq_sym. apply/negP => /eqP /mul_trmx_eq0 Z.
have W : (R *m V)^T \in unitmx by rewrite unitmx_tr unitmx_mul U VU.
have : row j ((R *m V)^T *m invmx (R *m V)^T) = 0 by rewrite row_mul Z mul0mx.
rewrite mulmxV // => /rowP /(_ j). rewrite !mxE eqxx => /eqP. by rewrite oner_eq0.
Qed.

Lemma ok_pair {A B : Type} (a a' : A) (b b' : B) : ok (a, b) = ok (a', b') -> a = a' /\ b = b'.
Proof. move=> H. split; [exact: (f_equal (fun r => if r is Verif.Base.Ok p then p.1 else a) H)|exact: (f_equal (fun r => if r is Verif.Base.Ok p then p.2 else b) H)]. Qed.
(** Fit on data, then transform the same data: the mean is zero and the covariance is the identity. With more samples than dimensions the
    fit either fails (covariance not positive definite: LinAlgError) or keeps all dimensions. *)
Theorem C65_fit_transform {N n} chol eigh (X : 'M[F]_(N, n.+1)) mu k (T : 'M[F]_(n.+1, k)) : (n.+1 < N)%N ->
  (forall S, is_chol S (chol S)) -> is_eigh (cov X) (eigh (cov X)) ->
  cent_whiten_fit chol eigh X = ok (mu, existT _ k T) -> k = n.+1 /\ mu = mean X /\ mean (predict mu T X) = 0 /\ cov (predict mu T X) = 1%:M.
Proof.
case: N X => [//|N] X L CH E. rewrite /cent_whiten_fit L /normal_fit S_cov. move: (CH (cov X)). case C: (chol (cov X)) => [R|//] [RR RU].
have SU : cov X \in unitmx by rewrite -RR unitmx_mul unitmx_tr RU.
rewrite RR invmxK. case EQ: (eigh (cov X)) => [d V] /=. rewrite EQ in E.
have P : forall j, 0 < d 0 j by apply: (gram_pos RU (V := V)); rewrite RR.
move=> H. case: (ok_pair H) => <- HT. have := C65_whiten E. rewrite HT /= => -[W K]. split.
  rewrite K. rewrite -[RHS]card_ord. apply: eq_card => j. by rewrite !inE P.
split=> //. rewrite mean_predict subrr mul0mx. split=> //. by rewrite cov_predict.
Qed.
Theorem C65_fit_not_positive_definite {N n} chol eigh (X : 'M[F]_(N, n.+1)) : (n.+1 < N)%N -> chol (cov X) = None -> cent_whiten_fit chol eigh X = err linalg_error.
Proof. case: N X => [//|N] X L C. by rewrite /cent_whiten_fit L /normal_fit S_cov C. Qed.
(** With too few samples only the centring uses the data: T is orthogonal. *)
Theorem C65_few_samples {N n} chol eigh (X : 'M[F]_(N, n.+1)) mu k (T : 'M[F]_(n.+1, k)) : (N <= n.+1)%N -> is_eigh 1%:M (eigh 1%:M) ->
  cent_whiten_fit chol eigh X = ok (mu, existT _ k T) -> k = n.+1 /\ mu = mean X /\ T^T *m T = 1%:M.
Proof.
move=> L E. rewrite /cent_whiten_fit ltnNge L /=. case EQ: (eigh 1%:M) => [d V] /=. rewrite EQ in E.
have P : forall j, 0 < d 0 j by apply: (gram_pos (R := 1%:M) (V := V)); rewrite ?unitmx1 // trmx1 mulmx1.
move=> H. case: (ok_pair H) => <- HT. have := C65_whiten E. rewrite HT /= => -[W K]. rewrite mulmx1 in W. split=> //.
rewrite K. rewrite -[RHS]card_ord. apply: eq_card => j. by rewrite !inE P.
Qed.
(** A vector as T (which [predict] tests for) cannot be used. *)
Theorem C65_vector_T_refuted {N n} mu t (X : 'M[F]_(N, n)) : cent_whiten_predict mu (VecT t) X = err name_error.
Proof. by []. Qed.
(** ** Principal components and discriminant directions *)
Lemma inord_ord {n} (j : 'I_n.+1) : inord j = j.
Proof. exact: inord_val. Qed.
(** the trace of A'DA for orthonormal columns is at most the sum of the k largest entries of D *)
Lemma ky_fan {n k} (d : 'rV[F]_n.+1) (A : 'M[F]_(n.+1, k)) : (k <= n.+1)%N -> A^T *m A = 1%:M -> (forall i j : 'I_n.+1, (i <= j)%N -> d 0 i <= d 0 j) ->
  \tr (A^T *m diag_mx d *m A) <= \sum_(j < k) descending d j.
Proof.
move=> KN O S. pose p (i : 'I_n.+1) : F := (A *m A^T) i i.
have PS : A *m A^T *m (A *m A^T) = A *m A^T by rewrite mulmxA -[A *m A^T *m A]mulmxA O mulmx1.
have P0 : forall i, 0 <= p i. { move=> i. rewrite /p mxE. apply: sumr_ge0 => j _. rewrite mxE -expr2. exact: sqr_ge0. }
have P1 : forall i, p i <= 1.
  move=> i. have SQ : p i ^+ 2 <= p i.
    rewrite {2}/p -PS mxE (bigD1 i) //= -/(p i) expr2 ler_addl. apply: sumr_ge0 => j _.
    have -> : (A *m A^T) j i = (A *m A^T) i j. { rewrite !mxE. apply: eq_bigr => l _. by rewrite !mxE mulrC. }
    rewrite -expr2. exact: sqr_ge0.
  case: (lerP (p i) 1) => // G. have G0 : 0 < p i := lt_trans ltr01 G. by rewrite expr2 ger_pmulr // leNgt G in SQ.
have TK : \sum_i p i = k%:R.
  have -> : \sum_i p i = \tr (A *m A^T) by []. by rewrite mxtrace_mulC O mxtrace1.
have TR : \tr (A^T *m diag_mx d *m A) = \sum_(j < n.+1) descending d j * p (rev_ord j).
  rewrite -mulmxA mxtrace_mulC -mulmxA /mxtrace (reindex_inj (@rev_ord_inj _)) /=. apply: eq_bigr => j _.
  rewrite mul_diag_mx mxE /descending inord_ord. by [].
rewrite TR (big_ord_widen _ (fun j => descending d j) KN) [X in _ <= X]big_mkcond /=.
rewrite -subr_ge0 -sumrB.
move: (p) P0 P1 TK {TR PS}. case: k A KN O p => [|k] A KN O _ p P0 P1 TK.
  have Z : forall i, p i = 0 by move=> i; apply: (psumr_eq0P _ TK) => // j _; exact: P0.
  apply: sumr_ge0 => j _. by rewrite Z mulr0 subr0.
pose t := descending d k.
have -> : \sum_(i < n.+1) ((if (i < k.+1)%N then descending d i else 0) - descending d i * p (rev_ord i)) =
          \sum_(i < n.+1) (descending d i - t) * ((if (i < k.+1)%N then 1 else 0) - p (rev_ord i)).
  have Q : \sum_(i < n.+1) t * ((if (i < k.+1)%N then 1 else 0) - p (rev_ord i)) = 0.
    rewrite -big_distrr /= sumrB -big_mkcond /= -(big_ord_widen _ (fun _ => 1) KN) sumr_const card_ord.
    have -> : \sum_(i < n.+1) p (rev_ord i) = \sum_i p i by rewrite [RHS](reindex_inj (@rev_ord_inj _)).
    by rewrite TK subrr mulr0.
  rewrite -[LHS]subr0 -[X in _ - X]Q -sumrB. apply: eq_bigr => i _. case: ifP => _.
    have R : forall a q : F, a - a * q - t * (1 - q) = (a - t) * (1 - q) by move=> *; fnorm; ring. exact: R.
  have R : forall a q : F, 0 - a * q - t * (0 - q) = (a - t) * (0 - q) by move=> *; fnorm; ring. exact: R.
apply: sumr_ge0 => i _. case: ltnP => L.
  apply: mulr_ge0; rewrite subr_ge0; last exact: P1. rewrite /t /descending inord_ord. apply: S. rewrite /= inordK //. exact: leq_sub2l.
rewrite sub0r mulrN oppr_ge0. apply: mulr_le0_ge0; last exact: P0. rewrite subr_le0 /t /descending inord_ord. apply: S. rewrite /= inordK //. apply: leq_sub2l. exact: leqW.
Qed.

Theorem C65_top_directions {n} (A B : 'M[F]_n.+1) d V k (T : 'M[F]_(n.+1, k)) dim : is_geigh A B (d, V) -> top_eigvecs V dim = ok (existT _ k T) ->
  k = odflt n.+1 dim /\ (k <= n.+1)%N /\ T^T *m B *m T = 1%:M /\ (forall i j, (T^T *m A *m T) i j = if i == j then descending d i else 0) /\
  (forall j, 0 <= T ord0 j) /\
  (forall W : 'M[F]_(n.+1, k), W^T *m B *m W = 1%:M -> \tr (W^T *m A *m W) <= \tr (T^T *m A *m T)).
Proof.
move=> E TT. have D := eigh_diag E. case: (E) => O [_ S]. simpl in *.
have [KE [KN [s [SS [TE TP]]]]] : k = odflt n.+1 dim /\ (k <= n.+1)%N /\ exists s : 'I_k -> F, (forall j, s j * s j = 1) /\ (forall i j, T i j = s j * V i (rev_ord (inord j))) /\ (forall j, 0 <= T ord0 j).
  move: TT. rewrite /top_eigvecs. case: dim => [k'|].
    case: ifP => // L H. have {}H := f_equal (fun r => if r is Verif.Base.Ok p then p else existT _ k T) H. simpl in H.
    have KK := f_equal (@projT1 _ _) H. simpl in KK. subst k'. have {H} <- := Eqdep_dec.inj_pair2_eq_dec _ PeanoNat.Nat.eq_dec _ _ _ _ H.
    split=> //. split=> //. exists (fun j => sgn (fliplr V ord0 (inord j))). split; first by move=> j; exact: sgn2. split=> [i j|j].
      rewrite mxE fix_signs_E. congr (_ * _). by rewrite mxE.
    rewrite mxE. exact: fix_signs_pos.
  move=> H. have {}H := f_equal (fun r => if r is Verif.Base.Ok p then p else existT _ k T) H. simpl in H.
  have KK := f_equal (@projT1 _ _) H. simpl in KK. subst k. have {H} <- := Eqdep_dec.inj_pair2_eq_dec _ PeanoNat.Nat.eq_dec _ _ _ _ H.
  split=> //. split=> //. exists (fun j => sgn (fliplr V ord0 j)). split; first by move=> j; exact: sgn2. split=> [i j|j].
    rewrite fix_signs_E. congr (_ * _). by rewrite mxE inord_ord.
  exact: fix_signs_pos.
have INJ : forall i j : 'I_k, ((rev_ord (inord i) : 'I_n.+1) == rev_ord (inord j)) = (i == j).
  move=> i j. rewrite (inj_eq (@rev_ord_inj _)) -val_eqE /= !inordK //; apply: leq_trans KN; exact: ltn_ord.
have DG : forall i j, (T^T *m A *m T) i j = if i == j then descending d i else 0.
  move=> i j. rewrite (picked _ TE) D !mxE INJ. case: eqP => [->|_]; last by rewrite mulr0n mulr0. by rewrite SS mul1r mulr1n.
split=> //. split=> //. split. { apply/matrixP => i j. rewrite (picked _ TE) O !mxE INJ. case: eqP => [->|_]; last by rewrite mulr0. by rewrite SS mulr1. }
split=> //. split=> // W OW.
have [_ VU] : V^T *m B \in unitmx /\ V \in unitmx by apply: mulmx1_unit.
pose Y := invmx V *m W. have WY : W = V *m Y by rewrite mulKVmx.
have OY : Y^T *m Y = 1%:M. { move: OW. by rewrite WY trmx_mul !mulmxA -[Y^T *m V^T *m B]mulmxA -[_ *m V]mulmxA O mulmx1. }
have -> : W^T *m A *m W = Y^T *m diag_mx d *m Y. { by rewrite WY trmx_mul -D !mulmxA. }
have -> : \tr (T^T *m A *m T) = \sum_(j < k) descending d j. { apply: eq_bigr => j _. by rewrite DG eqxx. }
exact: ky_fan.
Qed.
Lemma top_too_many {n} (V : 'M[F]_n.+1) k : (n.+1 < k)%N -> top_eigvecs V (Some k) = err assertion_error.
Proof. by rewrite /top_eigvecs ltnNge; case: (k <= n.+1)%N. Qed.

(** PCA: orthonormal directions; the projected data has zero mean and a diagonal covariance with the largest eigenvalues in descending order;
    no other orthonormal projection to k dimensions keeps more variance. *)
Theorem C65_pca {N n} eigh dim (X : 'M[F]_(N.+1, n.+1)) mu k (T : 'M[F]_(n.+1, k)) : is_eigh (cov X) (eigh (cov X)) ->
  pca_fit eigh dim X = ok (mu, existT _ k T) ->
  k = odflt n.+1 dim /\ T^T *m T = 1%:M /\ mean (predict mu T X) = 0 /\
  (forall i j, cov (predict mu T X) i j = if i == j then descending (eigh (cov X)).1 i else 0) /\ (forall j, 0 <= T ord0 j) /\
  (forall W : 'M[F]_(n.+1, k), W^T *m W = 1%:M -> \tr (cov (predict mu W X)) <= \tr (cov (predict mu T X))).
Proof.
move=> E. rewrite /pca_fit -cov_mx. case TT: (top_eigvecs (eigh (cov X)).2 dim) => [T'|//] H0. case: (ok_pair H0) => <- H. subst T'.
move: E TT. case: (eigh (cov X)) => [d V] E /= TT. have [KE [KN [O [DG [TP KF]]]]] := C65_top_directions (eigh_geigh E) TT.
split=> //. split; first by move: O; rewrite mulmx1. split; first by rewrite mean_predict subrr mul0mx.
split; first by move=> i j; rewrite cov_predict DG. split=> // W OW. rewrite !cov_predict. apply: KF. by rewrite mulmx1.
Qed.
Theorem C65_pca_too_many {N n} eigh k (X : 'M[F]_(N, n.+1)) : (n.+1 < k)%N -> pca_fit eigh (Some k) X = err assertion_error.
Proof. move=> L. by rewrite /pca_fit top_too_many. Qed.

(** ** C66 Between- and within-class scatter, discriminant analysis *)
(** the classes that occur, in order of first occurrence; their number *)
Definition classes {N} (y : 'I_N -> nat) : seq nat := undup [seq y i | i <- enum 'I_N].
(** rows of class c *)
Definition within {N n} (X : 'M[F]_(N, n)) (y : 'I_N -> nat) (c : nat) : 'M[F]_n :=
  \matrix_(a, b) ((\sum_(i | y i == c) (X i a - class_mean X y c 0 a) * (X i b - class_mean X y c 0 b)) / (#|[pred i | y i == c]|)%:R).
Definition centroid {N n} (X : 'M[F]_(N, n)) (y : 'I_N -> nat) : 'rV[F]_n :=
  \row_j ((\sum_(c <- classes y) class_mean X y c 0 j) / (size (classes y))%:R).
Definition between {N n} (X : 'M[F]_(N, n)) (y : 'I_N -> nat) : 'M[F]_n :=
  \matrix_(a, b) ((\sum_(c <- classes y) (class_mean X y c 0 a - centroid X y 0 a) * (class_mean X y c 0 b - centroid X y 0 b)) / (size (classes y))%:R).
Definition mean_within {N n} (X : 'M[F]_(N, n)) (y : 'I_N -> nat) : 'M[F]_n :=
  \matrix_(a, b) ((\sum_(c <- classes y) within X y c a b) / (size (classes y))%:R).
Lemma sum_prod_seq (I : Type) (r : seq I) (f g : I -> F) u v :
  \sum_(i <- r) (f i - u) * (g i - v) = (\sum_(i <- r) f i * g i) - v * (\sum_(i <- r) f i) - u * (\sum_(i <- r) g i) + (size r)%:R * (u * v).
Proof.
have R : forall a b : F, (a - u) * (b - v) = a * b + (- v * a + (- u * b + u * v)) by move=> *; fnorm; ring.
under eq_bigr do rewrite R. rewrite !big_split /= big_const_seq count_predT iter_addr_0 -!big_distrr /= mulr_natl. rewrite !mulNr !addrA. by [].
Qed.
(** SbSw.fit: the mean of the class means, the covariance of the class means, the mean of the class covariances *)
Theorem C66_sbsw {N n} (X : 'M[F]_(N.+1, n)) y : sbsw_fit X y = (centroid X y, between X y, mean_within X y).
Proof.
have K0 : ((size (classes y))%:R : F) != 0.
  rewrite pnatr_eq0. apply/eqP => /size0nil H. have : y ord0 \in classes y by rewrite mem_undup; apply: map_f; rewrite mem_enum. by rewrite H.
have CE : (size (ids y))%:R^-1 *: (\sum_(c <- ids y) class_mean X y c) = centroid X y.
  apply/rowP => j. by rewrite !mxE summxE mulrC.
rewrite /sbsw_fit CE. congr (_, _, _).
  apply/matrixP => a b. rewrite [LHS]mxE [X in X + _ = _]mxE [X in _ + X = _]mxE summxE [in X in _ + X = _]mxE big_ord1 mxE [RHS]mxE sum_prod_seq.
  have -> : \sum_(c <- ids y) ((class_mean X y c)^T *m class_mean X y c) a b = \sum_(c <- classes y) class_mean X y c 0 a * class_mean X y c 0 b.
    apply: eq_bigr => c _. by rewrite mxE big_ord1 mxE.
  rewrite [centroid X y 0 a]mxE [centroid X y 0 b]mxE. 
  have R : forall P u v m : F, m != 0 -> m^-1 * P - u / m * (v / m) = (P - v / m * u - u / m * v + m * (u / m * (v / m))) / m by move=> P u v m H; fnorm; field; apply/eqP.
  exact: R.
apply/matrixP => a b. rewrite !mxE summxE mulrC. congr (_ * _). apply: eq_bigr => c _. rewrite !mxE summxE mulrC. congr (_ * _). apply: eq_bigr => i _. by rewrite mxE big_ord1 !mxE.
Qed.
Lemma class_mean_row {N n} (X : 'M[F]_(N, n)) y c : class_mean X y c = (#|[pred i | y i == c]|%:R)^-1 *: \sum_(i | y i == c) row i X.
Proof. apply/rowP => j. rewrite !mxE summxE mulrC. congr (_ * _). apply: eq_bigr => i _. by rewrite mxE. Qed.
Lemma class_card {N} (y : 'I_N -> nat) c : c \in classes y -> (#|[pred i | y i == c]|%:R : F) != 0.
Proof.
rewrite mem_undup => /mapP [i _ ->]. rewrite pnatr_eq0 -lt0n. apply/card_gt0P. exists i. by rewrite inE.
Qed.
Lemma row_predict {N n k} (mu : 'rV[F]_n) (T : 'M[F]_(n, k)) (X : 'M[F]_(N, n)) i : row i (predict mu T X) = (row i X - mu) *m T.
Proof. rewrite /predict row_mul. congr (_ *m _). apply/rowP => j. by rewrite !mxE. Qed.
Lemma class_mean_predict {N n k} (mu : 'rV[F]_n) (T : 'M[F]_(n, k)) (X : 'M[F]_(N, n)) y c : c \in classes y ->
  class_mean (predict mu T X) y c = (class_mean X y c - mu) *m T.
Proof.
move=> C. rewrite !class_mean_row. under eq_bigr do rewrite row_predict. rewrite -mulmx_suml scalemxAl. congr (_ *m _).
rewrite sumrB scalerBr. congr (_ - _). rewrite sumr_const -[mu *+ _]scaler_nat scalerA mulVf ?scale1r //. exact: class_card.
Qed.
Lemma within_mx {N n} (X : 'M[F]_(N, n)) y c :
  within X y c = (#|[pred i | y i == c]|%:R)^-1 *: \sum_(i | y i == c) (row i X - class_mean X y c)^T *m (row i X - class_mean X y c).
Proof. apply/matrixP => a b. rewrite !mxE summxE mulrC. congr (_ * _). apply: eq_bigr => i _. by rewrite mxE big_ord1 !mxE. Qed.
Lemma within_predict {N n k} (mu : 'rV[F]_n) (T : 'M[F]_(n, k)) (X : 'M[F]_(N, n)) y c : c \in classes y ->
  within (predict mu T X) y c = T^T *m within X y c *m T.
Proof.
move=> C. rewrite !within_mx -scalemxAr -scalemxAl. congr (_ *: _). rewrite mulmx_sumr mulmx_suml. apply: eq_bigr => i _.
rewrite row_predict class_mean_predict // -mulmxBl.
have -> : row i X - mu - (class_mean X y c - mu) = row i X - class_mean X y c by rewrite opprB addrA subrK.
by rewrite trmx_mul !mulmxA.
Qed.
Lemma mean_within_mx {N n} (X : 'M[F]_(N, n)) y : mean_within X y = ((size (classes y))%:R)^-1 *: \sum_(c <- classes y) within X y c.
Proof. apply/matrixP => a b. by rewrite !mxE summxE mulrC. Qed.
Lemma mean_within_predict {N n k} (mu : 'rV[F]_n) (T : 'M[F]_(n, k)) (X : 'M[F]_(N, n)) y : mean_within (predict mu T X) y = T^T *m mean_within X y *m T.
Proof.
rewrite !mean_within_mx -scalemxAr -scalemxAl. congr (_ *: _). rewrite mulmx_sumr mulmx_suml. apply: eq_big_seq => c C. exact: within_predict.
Qed.
Lemma centroid_row {N n} (X : 'M[F]_(N, n)) y : centroid X y = ((size (classes y))%:R)^-1 *: \sum_(c <- classes y) class_mean X y c.
Proof. apply/rowP => j. by rewrite !mxE summxE mulrC. Qed.
Lemma classes_card {N} (y : 'I_N.+1 -> nat) : ((size (classes y))%:R : F) != 0.
Proof. rewrite pnatr_eq0. apply/eqP => /size0nil H. have : y ord0 \in classes y by rewrite mem_undup; apply: map_f; rewrite mem_enum. by rewrite H. Qed.
Lemma centroid_predict {N n k} (mu : 'rV[F]_n) (T : 'M[F]_(n, k)) (X : 'M[F]_(N.+1, n)) y : centroid (predict mu T X) y = (centroid X y - mu) *m T.
Proof.
rewrite !centroid_row. rewrite (eq_big_seq (fun c => (class_mean X y c - mu) *m T)); last by move=> c C; exact: class_mean_predict.
rewrite -mulmx_suml scalemxAl. congr (_ *m _). rewrite sumrB scalerBr. congr (_ - _).
rewrite big_const_seq count_predT iter_addr_0 -[mu *+ _]scaler_nat scalerA mulVf ?scale1r //. exact: classes_card.
Qed.
Lemma between_mx {N n} (X : 'M[F]_(N, n)) y :
  between X y = ((size (classes y))%:R)^-1 *: \sum_(c <- classes y) (class_mean X y c - centroid X y)^T *m (class_mean X y c - centroid X y).
Proof. apply/matrixP => a b. rewrite !mxE summxE mulrC. congr (_ * _). apply: eq_bigr => i _. by rewrite [RHS]mxE big_ord1 !mxE. Qed.
Lemma between_predict {N n k} (mu : 'rV[F]_n) (T : 'M[F]_(n, k)) (X : 'M[F]_(N.+1, n)) y : between (predict mu T X) y = T^T *m between X y *m T.
Proof.
rewrite !between_mx -scalemxAr -scalemxAl. congr (_ *: _). rewrite mulmx_sumr mulmx_suml. apply: eq_big_seq => c C.
rewrite centroid_predict class_mean_predict // -mulmxBl.
have -> : class_mean X y c - mu - (centroid X y - mu) = class_mean X y c - centroid X y by rewrite opprB addrA subrK.
by rewrite trmx_mul !mulmxA.
Qed.
(** LDA fitted on data and applied to the same data: the mean within-class covariance is the identity, the class means have zero mean and
    a diagonal covariance with the largest generalised eigenvalues in descending order, and no other projection with identity
    within-class covariance separates the class means more. *)
Theorem C66_lda {N n} geigh dim (X : 'M[F]_(N.+1, n.+1)) y mu k (T : 'M[F]_(n.+1, k)) :
  is_geigh (between X y) (mean_within X y) (geigh (between X y) (mean_within X y)) -> lda_fit geigh dim X y = ok (mu, existT _ k T) ->
  k = odflt n.+1 dim /\ mean_within (predict mu T X) y = 1%:M /\ centroid (predict mu T X) y = 0 /\
  (forall i j, between (predict mu T X) y i j = if i == j then descending (geigh (between X y) (mean_within X y)).1 i else 0) /\
  (forall W : 'M[F]_(n.+1, k), mean_within (predict mu W X) y = 1%:M -> \tr (between (predict mu W X) y) <= \tr (between (predict mu T X) y)).
Proof.
move=> E. rewrite /lda_fit C66_sbsw. case TT: (top_eigvecs (geigh (between X y) (mean_within X y)).2 dim) => [T'|//] H0. case: (ok_pair H0) => <- H. subst T'.
move: E TT. case: (geigh _ _) => [d V] E /= TT. have [KE [KN [O [DG [TP KF]]]]] := C65_top_directions E TT.
split=> //. split; first by rewrite mean_within_predict. split; first by rewrite centroid_predict subrr mul0mx.
split; first by move=> i j; rewrite between_predict DG. move=> W OW. rewrite !between_predict. apply: KF. by rewrite -OW mean_within_predict.
Qed.
Theorem C66_nda {n} geigh dim mu Sb Sw mu' k (T : 'M[F]_(n.+1, k)) : is_geigh Sb Sw (geigh Sb Sw) -> nda_fit geigh mu Sb Sw dim = ok (mu', existT _ k T) ->
  mu' = mu /\ k = odflt n.+1 dim /\ T^T *m Sw *m T = 1%:M /\ (forall i j, (T^T *m Sb *m T) i j = if i == j then descending (geigh Sb Sw).1 i else 0) /\
  (forall W : 'M[F]_(n.+1, k), W^T *m Sw *m W = 1%:M -> \tr (W^T *m Sb *m W) <= \tr (T^T *m Sb *m T)).
Proof.
move=> E. rewrite /nda_fit. case TT: (top_eigvecs (geigh Sb Sw).2 dim) => [T'|//] H0. case: (ok_pair H0) => <- H. subst T'.
move: E TT. case: (geigh _ _) => [d V] E /= TT. have [KE [KN [O [DG [TP KF]]]]] := C65_top_directions E TT. by [].
Qed.
Theorem C66_too_many {N n} geigh k (X : 'M[F]_(N, n.+1)) y mu Sb Sw : (n.+1 < k)%N ->
  lda_fit geigh (Some k) X y = err assertion_error /\ nda_fit geigh mu Sb Sw (Some k) = err assertion_error.
Proof. move=> L. rewrite /lda_fit /nda_fit. case: (sbsw_fit X y) => [[m b] w]. by rewrite !top_too_many. Qed.
(** With classes of equal size the total covariance splits into the two parts. *)
Theorem C66_total {N n} (X : 'M[F]_(N.+1, n)) y : (forall c c', c \in classes y -> c' \in classes y -> #|[pred i | y i == c]| = #|[pred i | y i == c']|) ->
  centroid X y = mean X /\ between X y + mean_within X y = cov X.
Proof.
move=> EQ. set K := (size (classes y))%:R : F. have K0 : K != 0 := classes_card y.
pose c0 := y ord0. have C0 : c0 \in classes y by rewrite mem_undup; apply: map_f; rewrite mem_enum.
set m := #|[pred i | y i == c0]|%:R : F. have M0 : m != 0 := class_card C0.
have ME : forall c, c \in classes y -> #|[pred i | y i == c]|%:R = m :> F by move=> c C; rewrite (EQ c c0).
have PART : forall G : 'I_N.+1 -> F, \sum_i G i = \sum_(c <- classes y) \sum_(i | y i == c) G i.
  move=> G. rewrite (exchange_big_dep xpredT) //=. apply: eq_bigr => i _. rewrite (eq_bigl (fun c => c == y i)); last by move=> c; rewrite eq_sym.
  rewrite -big_filter (filter_pred1_uniq (undup_uniq _)) ?big_seq1 //. rewrite mem_undup; apply: map_f; by rewrite mem_enum.
have CNT : N.+1%:R = K * m :> F.
  have -> : N.+1%:R = \sum_(i < N.+1) 1 :> F by rewrite sumr_const card_ord.
  rewrite PART. rewrite (eq_big_seq (fun _ => m)); last by move=> c C; rewrite -(ME c C) sumr_const.
  by rewrite big_const_seq count_predT iter_addr_0 mulr_natl.
have SUM : forall c j, c \in classes y -> \sum_(i | y i == c) X i j = class_mean X y c 0 j * m.
  move=> c j C. by rewrite mxE (ME c C) divfK.
have CE : centroid X y = mean X.
  apply/rowP => j. rewrite !mxE PART CNT -/K. have -> : \sum_(c <- classes y) \sum_(i | y i == c) X i j = (\sum_(c <- classes y) class_mean X y c 0 j) * m by rewrite big_distrl /=; apply: eq_big_seq => c C; exact: SUM.
  have R : forall s : F, s / K = s * m / (K * m) by move=> s; rewrite -mulf_div divff // mulr1. exact: R.
split=> //. apply/matrixP => a b. rewrite [LHS]mxE [between _ _ _ _]mxE [mean_within _ _ _ _]mxE [cov _ _ _]mxE CE -/K -mulrDl -big_split /= PART CNT.
have -> : \sum_(c <- classes y) \sum_(i | y i == c) (X i a - mean X 0 a) * (X i b - mean X 0 b) =
  (\sum_(c <- classes y) ((class_mean X y c 0 a - mean X 0 a) * (class_mean X y c 0 b - mean X 0 b) + within X y c a b)) * m.
  rewrite big_distrl /=. apply: eq_big_seq => c C. rewrite mulrDl [within _ _ _ _ _]mxE (ME c C) divfK //.
  move: (SUM c a C) (SUM c b C). move: (class_mean X y c 0 a) (class_mean X y c 0 b) (mean X 0 a) (mean X 0 b) => fa fb u v SA SB.
  have R : forall p q : F, (p - u) * (q - v) = (p - fa) * (q - fb) + ((fa - u) * (q - fb) + ((fb - v) * (p - fa) + (fa - u) * (fb - v))) by move=> *; fnorm; ring.
  under eq_bigr do rewrite R. rewrite !big_split /= -!big_distrr /= sumrB SB sumr_const -[fb *+ _]mulr_natr (ME c C) subrr mulr0 add0r.
  rewrite sumrB SA sumr_const -[fa *+ _]mulr_natr (ME c C) subrr mulr0 add0r addrC. congr (_ + _). rewrite sumr_const -(ME c C) mulr_natr mulrnAr. by [].
have R : forall s : F, s / K = s * m / (K * m) by move=> s; rewrite -mulf_div divff // mulr1. exact: R.
Qed.

(** ** C67 Nuisance projection, length normalisation, mean and variance normalisation *)
(** With orthonormal rows U the projection removes exactly the span of U, keeps what is orthogonal to it, is idempotent, and never
    makes a vector longer. *)
Theorem C67_nap {N n k} (U : 'M[F]_(k, n)) (X : 'M[F]_(N, n)) : U *m U^T = 1%:M ->
  nap_predict U X *m U^T = 0 /\ nap_predict U (nap_predict U X) = nap_predict U X /\ (X *m U^T = 0 -> nap_predict U X = X) /\
  (forall i, norm2 (row i (nap_predict U X)) + norm2 (row i (X *m U^T)) = norm2 (row i X)).
Proof.
move=> O. have Z : nap_predict U X *m U^T = 0 by rewrite /nap_predict mulmxBl -mulmxA O mulmx1 subrr.
split=> //. split; first by rewrite {1}/nap_predict Z mul0mx subr0. split; first by move=> H; rewrite /nap_predict H mul0mx subr0.
have NE : forall m (v : 'rV[F]_m), norm2 v = (v *m v^T) 0 0 by move=> m v; rewrite /norm2 mxE; apply: eq_bigr => j _; rewrite mxE expr2.
move=> i. rewrite !NE. set x := row i X. have -> : row i (nap_predict U X) = nap_predict U x by rewrite /nap_predict /x linearB /= !row_mul.
rewrite row_mul -/x. set p := x *m U^T. have -> : nap_predict U x = x - p *m U by [].
rewrite -[LHS]/(((x - p *m U) *m (x - p *m U)^T) 0 0 + (p *m p^T) 0 0). rewrite linearB /= trmx_mul mulmxBl !mulmxBr.
have -> : p *m U *m (U^T *m p^T) = p *m p^T by rewrite mulmxA -[p *m U *m U^T]mulmxA O mulmx1.
have -> : x *m (U^T *m p^T) = p *m p^T by rewrite mulmxA.
have -> : p *m U *m x^T = p *m p^T by rewrite /p trmx_mul trmxK -mulmxA.
rewrite subrr subr0. by rewrite mxE [X in _ + X + _ = _]mxE subrK.
Qed.
Theorem C67_nap_fit_refuted {N n} (X : 'M[F]_(N, n)) u y : nap_fit X u y = err attribute_error.
Proof. by []. Qed.
(** Length normalisation keeps the direction; the squared length is at most the dimension, and more than (1-eps/length)^2 times it. *)
Theorem C67_lnorm {N n} (eps : F) (X : 'M[F]_(N, n)) i : 0 < eps ->
  exists s, 0 <= s /\ row i (lnorm eps X) = s *: row i X /\ norm2 (row i (lnorm eps X)) <= n%:R /\ (row i X != 0 -> 0 < s) /\
    norm2 (row i (lnorm eps X)) * (Num.sqrt (norm2 (row i X)) + eps) ^+ 2 = n%:R * norm2 (row i X).
Proof.
move=> E. set x := row i X. set t := Num.sqrt (norm2 x) + eps.
have Q0 : 0 <= norm2 x by apply: sumr_ge0 => j _; exact: sqr_ge0.
have T0 : 0 < t by apply: ltr_paddl => //; exact: sqrtr_ge0.
exists (Num.sqrt n%:R / t).
have RE : row i (lnorm eps X) = (Num.sqrt n%:R / t) *: x by apply/rowP => j; rewrite !mxE mulrAC.
have NE : norm2 (row i (lnorm eps X)) = n%:R / t ^+ 2 * norm2 x.
  rewrite RE /norm2 big_distrr /=. apply: eq_bigr => j _. by rewrite mxE exprMn exprMn sqr_sqrtr ?ler0n // exprVn.
have T2 : 0 < t ^+ 2 by rewrite exprn_gt0.
split; first by apply: divr_ge0; [exact: sqrtr_ge0|exact: ltW]. split=> //. split.
  rewrite NE -[X in _ <= X]mulr1 -mulrA. apply: ler_wpmul2l; first exact: ler0n. rewrite mulrC ler_pdivr_mulr // mul1r.
  rewrite -[norm2 x]sqr_sqrtr // ler_sqr ?nnegrE ?sqrtr_ge0 //; last exact: ltW. by rewrite ler_addl ltW.
split; last by rewrite NE mulrAC divfK // gt_eqF.
move=> X0. apply: divr_gt0 => //. rewrite sqrtr_gt0 ltr0n lt0n. apply/eqP => N0. move: X0 => /negP. apply. apply/eqP/rowP => j. by have := ltn_ord j; rewrite [X in (_ < X)%N]N0.
Qed.
(** Mean and variance normalisation with the statistics of the data: zero mean, and unit variance in every component that varies. *)
Theorem C67_mvn {N n} (X : 'M[F]_(N.+1, n)) : let: (mu, s) := mvn_fit X in let Y := mvn_predict (Some mu) (Some s) X in
  mean Y = 0 /\ (forall j, cov X j j != 0 -> cov Y j j = 1) /\ (forall i j, X i j = Y i j * s 0 j + mu 0 j \/ cov X j j = 0).
Proof.
rewrite /mvn_fit. set s := \row_j _. set Y := mvn_predict _ _ _ => /=.
have YE : forall i j, Y i j = (X i j - mean X 0 j) / s 0 j by move=> i j; rewrite /Y /= !mxE.
have SE : forall j, s 0 j = Num.sqrt (cov X j j) by move=> j; rewrite /s !mxE; congr (Num.sqrt (_ / _)); apply: eq_bigr => i _; rewrite expr2 !mxE.
have C0 : forall j, 0 <= cov X j j by move=> j; rewrite mxE; apply: divr_ge0; [apply: sumr_ge0 => i _; rewrite -expr2; exact: sqr_ge0|exact: ler0n].
have NZ : (N.+1%:R : F) != 0 by rewrite pnatr_eq0.
have MS : forall j, \sum_i (X i j - mean X 0 j) = 0.
  move=> j. by rewrite sumrB sumr_const card_ord -[mean X 0 j *+ _]mulr_natr mxE divfK // subrr.
have M0 : mean Y = 0.
  apply/rowP => j. rewrite !mxE. under eq_bigr do rewrite YE. by rewrite -big_distrl /= MS !mul0r.
split=> //. split.
  move=> j J. rewrite mxE M0 mxE. have -> : \sum_i (Y i j - 0) * (Y i j - 0) = (\sum_i (X i j - mean X 0 j) * (X i j - mean X 0 j)) / (s 0 j ^+ 2).
    rewrite big_distrl /=. apply: eq_bigr => i _. by rewrite !subr0 YE mulf_div expr2.
  have CE : (\sum_i (X i j - mean X 0 j) * (X i j - mean X 0 j)) / N.+1%:R = cov X j j by rewrite [RHS]mxE.
  by rewrite mulrAC CE SE sqr_sqrtr // divff.
move=> i j. case: (altP (cov X j j =P 0)) => [->|J]; [by right|left]. rewrite YE divfK ?subrK //. rewrite SE sqrtr_eq0 -ltNge lt_neqAle C0 andbT eq_sym. by [].
Qed.

(** ** The hypotheses are met: two eigenvalues; two samples in one dimension; two classes of two samples *)
Example C65_whiten_witness : let d : 'rV[F]_2 := \row_j (if j == 0 then 1 else 4%:R) in is_eigh (diag_mx d) (d, 1%:M).
Proof.
move=> d. split; first by rewrite trmx1 mulmx1. split; first by rewrite mulmx1 mul1mx.
have L : 1 <= 4%:R :> F by rewrite ler1n.
move=> i j. rewrite /= !mxE. case: i => [[|[|//]] Hi]; case: j => [[|[|//]] Hj] //= _; by rewrite ?lexx.
Qed.
Definition two : 'M[F]_(2, 1) := \matrix_(i, j) (if i == 0 then 1 else -1).
Lemma two_mean : mean two = 0.
Proof. apply/rowP => j. rewrite !mxE !big_ord_recl big_ord0 !mxE /= addr0 subrr mul0r. by []. Qed.
Lemma two_cov : cov two = 1%:M.
Proof.
apply/matrixP => a b. rewrite mxE two_mean !big_ord_recl big_ord0 !mxE /= !ord1 eqxx /= !subr0 mulr1 mulrNN mulr1 addr0.
rewrite -[1 + 1]/(2%:R) divff //. by rewrite pnatr_eq0.
Qed.
Example C65_fit_witness : let chol := fun S => if S == 1%:M then Some 1%:M else None in let eigh := fun C => (const_mx 1, 1%:M) in
  (forall S : 'M[F]_1, is_chol S (chol S)) /\ is_eigh (cov two) (eigh (cov two)) /\ (exists mu k T, cent_whiten_fit chol eigh two = ok (mu, existT _ k T)) /\
  (exists mu T, pca_fit eigh (Some 1%N) two = ok (mu, existT _ 1%N T)).
Proof.
move=> chol eigh. split.
  move=> S. rewrite /chol. case: eqP => [->|//] /=. by rewrite trmx1 mulmx1 unitmx1.
split.
  rewrite two_cov /eigh. split; first by rewrite trmx1 mulmx1. split; last by move=> i j _; rewrite !mxE. rewrite !mul1mx. apply/matrixP => i j. rewrite !mxE !ord1 eqxx. by [].
split; last by eexists; eexists.
rewrite /cent_whiten_fit /normal_fit S_cov two_cov /chol eqxx /=. case: (whiten_T _ _) => k T. by exists (mean two), k, T.
Qed.
Definition four : 'M[F]_(4, 1) := \matrix_(i, j) (nth 0 [:: 1; -1; 4%:R + 1; 4%:R - 1] i).
Definition four_y (i : 'I_4) : nat := if (i < 2)%N then 0%N else 1%N.
Example C66_lda_witness : exists geigh, is_geigh (between four four_y) (mean_within four four_y) (geigh (between four four_y) (mean_within four four_y)) /\
  exists mu T, lda_fit geigh (Some 1%N) four four_y = ok (mu, existT _ 1%N T).
Proof.
have CL : classes four_y = [:: 0%N; 1%N] by rewrite /classes !enum_ordSl enum_ord0 /=.
have CA : #|[pred i | four_y i == 0%N]| = 2%N by rewrite -sum1_card big_mkcond !big_ord_recl big_ord0.
have CB : #|[pred i | four_y i == 1%N]| = 2%N by rewrite -sum1_card big_mkcond !big_ord_recl big_ord0.
have N2 : (2%:R : F) != 0 by rewrite pnatr_eq0.
have MA : forall j, class_mean four four_y 0 0 j = 0 by move=> j; rewrite mxE big_mkcond !big_ord_recl big_ord0 CA !mxE /= !addr0 subrr mul0r.
have MB : forall j, class_mean four four_y 1 0 j = 4%:R.
  move=> j. rewrite mxE big_mkcond !big_ord_recl big_ord0 CB !mxE /= !add0r addr0.
  have R : forall f : F, f + 1 + (f - 1) = f * 2%:R by move=> f; rewrite addrACA subrr addr0 mulr_natr mulr2n. by rewrite R mulfK.
have WA : within four four_y 0 0 0 = 1.
  rewrite mxE MA big_mkcond !big_ord_recl big_ord0 CA !mxE /= !addr0 !subr0 mulr1 mulrNN mulr1. by rewrite -[1 + 1]/(2%:R) divff.
have WB : within four four_y 1 0 0 = 1.
  rewrite mxE MB big_mkcond !big_ord_recl big_ord0 CB !mxE /= !add0r addr0.
  have R : forall f : F, f + 1 - f = 1 by move=> f; rewrite addrAC subrr add0r. have R' : forall f : F, f - 1 - f = -1 by move=> f; rewrite addrAC subrr add0r.
  rewrite !R !R' mulr1 mulrNN mulr1. by rewrite -[1 + 1]/(2%:R) divff.
have MW : mean_within four four_y = 1%:M.
  apply/matrixP => a b. rewrite !ord1 mxE CL !big_cons big_nil WA WB addr0 mxE eqxx /=. by rewrite -[1 + 1]/(2%:R) divff.
exists (fun A B => (\row_j A 0 0, 1%:M)). rewrite MW. split.
  split; first by rewrite trmx1 !mulmx1. split; last by move=> i j _; rewrite !mxE. rewrite mulmx1 !mul1mx. apply/matrixP => i j. by rewrite !ord1 !mxE.
rewrite /lda_fit. case: (sbsw_fit _ _) => [[m b] w]. by eexists; eexists.
Qed.
End Spec.
Print Assumptions C65_whiten. Print Assumptions C65_fit_transform. Print Assumptions C65_pca. Print Assumptions C66_lda. Print Assumptions C66_total.
Print Assumptions C67_nap. Print Assumptions C67_lnorm. Print Assumptions C67_mvn.
