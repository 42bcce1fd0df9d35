(** Positive definite matrices, Cholesky factors, log-determinants, covariance flooring (C73). *)
From Verif Require Import RingF LinAlg.
Set Warnings "-notation-overridden,-ambiguous-paths".
From mathcomp Require Import all_ssreflect all_algebra.
Set Implicit Arguments. Unset Strict Implicit. Unset Printing Implicit Defensive.
Import Order.TTheory GRing.Theory Num.Theory.
Local Open Scope ring_scope.

Section P.
Variable F : rcfType.
Add Ring FRing' : (F_ring F). Add Ring FZRing' : (F_zring F). Add Field FField' : (F_field F). Add Field FZField' : (F_zfield F).
(** ** Specification *)
(** the value u P v' *)
Definition form {n} (P : 'M[F]_n) (u v : 'rV[F]_n) : F := (u *m P *m v^T) 0 0.
Definition posdef {n} (P : 'M[F]_n) : Prop := P^T = P /\ forall v : 'rV[F]_n, v != 0 -> 0 < form P v v.
Definition possemi {n} (P : 'M[F]_n) : Prop := P^T = P /\ forall v : 'rV[F]_n, 0 <= form P v v.
Definition upper {n} (R : 'M[F]_n) : Prop := forall i j : 'I_n, (j < i)%N -> R i j = 0.
(** singular value decomposition: T = u diag(d) v', u and v orthogonal, d >= 0 *)
Definition is_svd {n} (T : 'M[F]_n) (ud : 'M[F]_n * 'rV[F]_n) : Prop :=
  exists v : 'M[F]_n, ud.1^T *m ud.1 = 1%:M /\ v^T *m v = 1%:M /\ T = ud.1 *m diag_mx ud.2 *m v^T /\ forall i, 0 <= ud.2 0 i.
(** what is used of the logarithm *)
Definition is_log (ln : F -> F) : Prop := forall a b, 0 < a -> 0 < b -> ln (a * b) = ln a + ln b.

(** X is S floored by Fl: in no direction less than Fl or than S, equal to S if S is nowhere below Fl, and along every generalised
    eigenvector of (S, Fl) the eigenvalue is raised to 1 if below and kept otherwise *)
Definition is_floored {n} (S Fl X : 'M[F]_n) : Prop :=
  posdef X /\ possemi (X - Fl) /\ possemi (X - S) /\ (possemi (S - Fl) -> X = S) /\
  forall (w : 'rV[F]_n) k, w *m S = k *: (w *m Fl) -> w *m X = Num.max k 1 *: (w *m Fl).

(** ** Proofs *)
Lemma formDl n (P : 'M[F]_n) a b v : form P (a + b) v = form P a v + form P b v. Proof. by rewrite /form !mulmxDl mxE. Qed.
Lemma formDr n (P : 'M[F]_n) a b v : form P v (a + b) = form P v a + form P v b. Proof. by rewrite /form linearD mulmxDr mxE. Qed.
Lemma formNl n (P : 'M[F]_n) a v : form P (- a) v = - form P a v. Proof. by rewrite /form !mulNmx mxE. Qed.
Lemma formNr n (P : 'M[F]_n) a v : form P v (- a) = - form P v a. Proof. by rewrite /form linearN mulmxN mxE. Qed.
Lemma formZl n (P : 'M[F]_n) k a v : form P (k *: a) v = k * form P a v. Proof. by rewrite /form -!scalemxAl mxE. Qed.
Lemma formZr n (P : 'M[F]_n) k a v : form P v (k *: a) = k * form P v a. Proof. by rewrite /form linearZ -scalemxAr mxE. Qed.
Lemma form0l n (P : 'M[F]_n) v : form P 0 v = 0. Proof. by rewrite /form !mul0mx mxE. Qed.
Lemma form0r n (P : 'M[F]_n) v : form P v 0 = 0. Proof. by rewrite /form trmx0 mulmx0 mxE. Qed.
Lemma formPD n (P Q : 'M[F]_n) u v : form (P + Q) u v = form P u v + form Q u v. Proof. by rewrite /form mulmxDr mulmxDl mxE. Qed.
Lemma formPZ n (P : 'M[F]_n) k u v : form (k *: P) u v = k * form P u v. Proof. by rewrite /form -scalemxAr -scalemxAl mxE. Qed.
Lemma formC n (P : 'M[F]_n) u v : P^T = P -> form P u v = form P v u.
Proof. by move=> S; rewrite /form -[u *m P *m v^T]trmxK mxE !trmx_mul trmxK S mulmxA. Qed.
Lemma form_sq n m (A : 'M[F]_(n, m)) v : form (A *m A^T) v v = \sum_j ((v *m A) 0 j) ^+ 2.
Proof. rewrite /form -mulmxA -mulmxA -trmx_mul mulmxA mxE. by apply: eq_bigr => j _; rewrite [_^T _ _]mxE expr2. Qed.
Lemma form_sq_ge0 n m (A : 'M[F]_(n, m)) v : 0 <= form (A *m A^T) v v.
Proof. rewrite form_sq. apply: sumr_ge0 => j _. exact: sqr_ge0. Qed.
Lemma form_sq_eq0 n m (A : 'M[F]_(n, m)) v : form (A *m A^T) v v = 0 -> v *m A = 0.
Proof.
rewrite form_sq => /eqP; rewrite psumr_eq0; last by move=> j _; apply: sqr_ge0. move/allP=> H. apply/rowP=> j. rewrite [RHS]mxE. apply/eqP. rewrite -sqrf_eq0. by apply: (H j); rewrite mem_index_enum.
Qed.
Lemma posdef_semi n (P : 'M[F]_n) : posdef P -> possemi P.
Proof. move=> [S H]; split=> // v. case: (eqVneq v 0) => [->|/H /ltW //]. by rewrite form0l. Qed.
Lemma posdef_unit n (P : 'M[F]_n) : posdef P -> P \in unitmx.
Proof.
move=> [S H]. rewrite -row_free_unit. apply/row_freeP. case: (eqVneq (kermx P) 0) => [/eqP K|].
  exists (invmx P). rewrite mulmxV //. by rewrite -row_free_unit -kermx_eq0.
rewrite -submx0 => /row_subPn [i]. rewrite submx0 => Hi. have := H _ Hi. rewrite /form -row_mul mulmx_ker row0 mul0mx mxE ltxx. by [].
Qed.
Lemma posdefD n (P Q : 'M[F]_n) : posdef P -> possemi Q -> posdef (P + Q).
Proof. move=> [S H] [S' H']; split; first by rewrite linearD /= S S'. move=> v V. rewrite formPD. apply: ltr_paddr; [exact: H'|exact: H]. Qed.
Lemma possemiZ n k (P : 'M[F]_n) : 0 <= k -> possemi P -> possemi (k *: P).
Proof. move=> K [S H]; split; first by rewrite linearZ /= S. move=> v. rewrite formPZ. exact: mulr_ge0. Qed.
Lemma posdefZ n k (P : 'M[F]_n) : 0 < k -> posdef P -> posdef (k *: P).
Proof. move=> K [S H]; split; first by rewrite linearZ /= S. move=> v V. rewrite formPZ. apply: mulr_gt0 => //. exact: H. Qed.
Lemma posdef_inv n (P : 'M[F]_n) : posdef P -> posdef (invmx P).
Proof.
move=> D. have U := posdef_unit D. case: (D) => S H. split; first by rewrite trmx_inv S. move=> v V.
have E : form (invmx P) v v = form P (v *m invmx P) (v *m invmx P). by rewrite /form trmx_mul trmx_inv S mulmxKV // mulmxA.
rewrite E. apply: H. apply: contra V => /eqP Q. by rewrite -[v](mulmxKV U) Q mul0mx.
Qed.
(** triangular matrices *)
Lemma upper_det n (R : 'M[F]_n) : upper R -> \det R = \prod_i R i i.
Proof.
move=> U. rewrite -det_tr det_trig; first by apply: eq_bigr => i _; rewrite mxE. apply/is_trig_mxP => i j H. rewrite mxE. exact: U.
Qed.
Lemma upper_unit n (R : 'M[F]_n) : upper R -> (forall i, 0 < R i i) -> R \in unitmx.
Proof. move=> U P. by rewrite unitmxE upper_det // unitfE gt_eqF // prodr_gt0 // => i _. Qed.
Lemma gram_posdef n (R : 'M[F]_n) : R \in unitmx -> posdef (R^T *m R).
Proof.
move=> U. split; first by rewrite trmx_mul trmxK. move=> v V. rewrite -{2}[R]trmxK. rewrite lt_def form_sq_ge0 andbT. apply: contra V => /eqP Q. have := form_sq_eq0 Q => Q'.
by rewrite -(mulmxK (_ : R^T \in unitmx) v) ?unitmx_tr // Q' mul0mx.
Qed.
(** *** Cholesky *)
Lemma cholS n (S : 'M[F]_(1 + n)) : chol (S : 'M[F]_(n.+1)) =
  if 0 < S 0 0 then (if chol (drsubmx S - ((Num.sqrt (S 0 0))^-1 *: ursubmx S)^T *m ((Num.sqrt (S 0 0))^-1 *: ursubmx S)) is Some R then
    Some (block_mx (Num.sqrt (S 0 0))%:M ((Num.sqrt (S 0 0))^-1 *: ursubmx S) 0 R) else None) else None.
Proof. by []. Qed.
Lemma sym_blocks n (S : 'M[F]_(1 + n)) : S^T = S -> (ursubmx S)^T = dlsubmx S /\ (drsubmx S)^T = drsubmx S.
Proof. by move=> H; rewrite trmx_ursub trmx_drsub H. Qed.
Lemma upper_block n (r : F) (v : 'rV[F]_n) (R : 'M[F]_n) : upper R -> upper (block_mx r%:M v 0 R : 'M[F]_(1 + n)).
Proof.
move=> U i j. rewrite -(splitK i) -(splitK j). case: (split i) => i'; case: (split j) => j' /=; rewrite ?(ord1 i') ?(ord1 j') //=.
  by rewrite block_mxEdl mxE.
by rewrite block_mxEdr !add1n ltnS; exact: U.
Qed.
Lemma pos_block n (r : F) (v : 'rV[F]_n) (R : 'M[F]_n) : 0 < r -> (forall i, 0 < R i i) -> forall i, 0 < (block_mx r%:M v 0 R : 'M[F]_(1 + n)) i i.
Proof.
move=> R0 P i. rewrite -(splitK i). case: (split i) => i' /=; first by rewrite (ord1 i') block_mxEul mxE eqxx. by rewrite block_mxEdr.
Qed.
Lemma block_gram n (S : 'M[F]_(1 + n)) (r : F) (R : 'M[F]_n) : S^T = S -> 0 < r -> r * r = S 0 0 ->
  R^T *m R = drsubmx S - (r^-1 *: ursubmx S)^T *m (r^-1 *: ursubmx S) ->
  (block_mx r%:M (r^-1 *: ursubmx S) 0 R)^T *m block_mx r%:M (r^-1 *: ursubmx S) 0 R = S.
Proof.
move=> SY R0 RR G. have [S2 S4] := sym_blocks SY. rewrite -[RHS]submxK tr_block_mx mulmx_block. f_equal.
+ rewrite trmx0 mul0mx addr0 tr_scalar_mx -scalar_mxM RR. apply/matrixP=> i j. rewrite !ord1 !mxE /= mulr1n. congr (S _ _); exact/val_inj.
+ rewrite trmx0 mul0mx addr0 tr_scalar_mx mul_scalar_mx scalerA mulfV ?scale1r // gt_eqF //.
+ rewrite mulmx0 addr0 mul_mx_scalar linearZ /= scalerA mulfV ?gt_eqF // scale1r. by rewrite S2.
+ by rewrite G addrC subrK.
Qed.
Lemma chol_sound n (S : 'M[F]_n) R : S^T = S -> chol S = Some R -> upper R /\ (forall i, 0 < R i i) /\ R^T *m R = S.
Proof.
elim: n S R => [|n IH] S R SY; first by move=> [<-]; split; [|split] => //; [move=> []|move=> []|apply/matrixP=> -[]].
rewrite cholS. case: ifP => // A. set r := Num.sqrt _. set v := _ *: _. set C := _ - _. case E: (chol C) => [R'|//] [<-].
have R0 : 0 < r by rewrite sqrtr_gt0. have RR : r * r = S 0 0 by rewrite -expr2 sqr_sqrtr // ltW.
have [S2 S4] := sym_blocks SY.
have CS : C^T = C by rewrite /C linearB /= trmx_mul trmxK S4.
case: (IH _ _ CS E) => [U [P G]]. split; [|split].
- exact: upper_block.
- exact: pos_block.
- exact: block_gram.
Qed.
Lemma schur_form n (S : 'M[F]_(1 + n)) (r : F) (w : 'rV[F]_n) : S^T = S -> 0 < r -> r * r = S 0 0 ->
  let z := row_mx (- ((w *m (ursubmx S)^T) 0 0 / S 0 0))%:M w in
  form S z z = form (drsubmx S - (r^-1 *: ursubmx S)^T *m (r^-1 *: ursubmx S)) w w.
Proof.
move=> SY R0 RR; lazy zeta. have [S2 S4] := sym_blocks SY. set b := ursubmx S in S2 *. set q := (w *m b^T) 0 0. set a := S 0 0 in RR *.
have WB : w *m b^T = q%:M by rewrite [LHS]mx11_scalar. have BW : b *m w^T = q%:M by rewrite -[b *m w^T]trmxK trmx_mul trmxK WB tr_scalar_mx.
have U : ulsubmx S = a%:M. apply/matrixP=> i j. rewrite !ord1 !mxE /= mulr1n. congr (S _ _); exact/val_inj.
have AN : a != 0 by rewrite -RR mulf_neq0 // gt_eqF.
have Q : form (drsubmx S - (r^-1 *: b)^T *m (r^-1 *: b)) w w = form (drsubmx S) w w - q * q / a.
  have VW : (r^-1 *: b) *m w^T = (r^-1 * q)%:M by rewrite -scalemxAl BW scale_scalar_mx.
  have WV : w *m (r^-1 *: b)^T = (r^-1 * q)%:M by rewrite linearZ /= -scalemxAr WB scale_scalar_mx.
  rewrite formPD. congr (_ + _). rewrite /form mulmxN mulNmx mxE mulmxA WV -mulmxA VW -scalar_mxM mxE /= mulr1n.
  rewrite -RR. have RN : r != 0 by rewrite gt_eqF. have R1 : forall r q : F, r != 0 -> - (r^-1 * q * (r^-1 * q)) = - (q * q / (r * r)) by move=> *; fnorm; field; apply/eqP. exact: R1.
rewrite Q /form -{1}[S]submxK tr_row_mx mul_row_block mul_row_col U -/b -S2 WB.
have -> : (- (q / a))%:M *m b + w *m drsubmx S = (- (q / a)) *: b + w *m drsubmx S by rewrite mul_scalar_mx.
rewrite tr_scalar_mx -scalar_mxM -raddfD -scalar_mxM mulmxDl -scalemxAl BW. rewrite [LHS]mxE [X in X + _]mxE [X in _ + X]mxE [X in _ + (X + _)]mxE [X in _ + (_ * X + _)]mxE /= !mulr1n.
have R : forall a q f : F, a != 0 -> (- (q / a) * a + q) * - (q / a) + (- (q / a) * q + f) = f - q * q / a by move=> *; fnorm; field; apply/eqP.
exact: R.
Qed.
Lemma chol_complete n (S : 'M[F]_n) : posdef S -> exists R, chol S = Some R.
Proof.
elim: n S => [|n IH] S D; first by exists S. rewrite cholS. case: (D) => SY H.
set e := delta_mx 0 0 : 'rV[F]_(1 + n). have E0 : e != 0. apply/eqP => /matrixP /(_ 0 0). rewrite !mxE eqxx /=. move/eqP. by rewrite oner_eq0.
have := H e E0. rewrite /form -rowE mxE (bigD1 0) //= !mxE eqxx mulr1 big1 ?addr0; last by move=> j J; rewrite !mxE (negbTE J) andbF mulr0.
move=> A. rewrite A. set r := Num.sqrt _. have R0 : 0 < r by rewrite sqrtr_gt0. have RR : r * r = S 0 0 by rewrite -expr2 sqr_sqrtr // ltW.
set C := _ - _. suff /IH [R ->] : posdef C by eexists. have [S2 S4] := sym_blocks SY.
split; first by rewrite /C linearB /= trmx_mul trmxK S4. move=> w W.
rewrite /C -(schur_form w SY R0 RR). apply: H. apply: contra W => /eqP Q. have := congr1 (@rsubmx _ 1 1 n) Q. by rewrite row_mxKr linear0 => ->.
Qed.
(** *** Theorems *)
(** the Cholesky factorisation succeeds exactly on positive definite matrices (LinAlgError otherwise); its result is upper triangular with
    a positive diagonal and R'R = S *)
Theorem C73_cholesky : forall n (S : 'M[F]_n), S^T = S ->
  (posdef S <-> exists R, cholesky S = ok R) /\ (~ posdef S -> cholesky S = err linalg_error) /\
  (forall R, cholesky S = ok R -> upper R /\ (forall i, 0 < R i i) /\ R^T *m R = S).
Proof.
move=> n S SY. have A : forall R, cholesky S = ok R -> upper R /\ (forall i, 0 < R i i) /\ R^T *m R = S.
  move=> R. rewrite /cholesky. case E: (chol S) => [R'|//] [<-]. exact: chol_sound.
have B : (exists R, cholesky S = ok R) -> posdef S. move=> [R /A [U [P <-]]]. apply: gram_posdef. exact: upper_unit.
split; [split => //|split => //].
  move=> D. have [R E] := chol_complete D. exists R. by rewrite /cholesky E.
move=> N. rewrite /cholesky. case E: (chol S) => [R|//]. case: N. apply: B. exists R. by rewrite /cholesky E.
Qed.
Lemma upper_blocks n (R : 'M[F]_(1 + n)) : upper R -> (forall i, 0 < R i i) ->
  exists (r : F) (v : 'rV[F]_n) (R' : 'M[F]_n), R = block_mx r%:M v 0 R' /\ upper R' /\ (forall i, 0 < R' i i) /\ 0 < r.
Proof.
move=> U P. exists (R 0 0), (ursubmx R), (drsubmx R). split; [|split; [|split]].
- rewrite -{1}[R]submxK. f_equal.
    apply/matrixP=> i j. rewrite !ord1 !mxE /= mulr1n. congr (R _ _); exact/val_inj.
  apply/matrixP=> i j. rewrite !mxE. apply: U. by rewrite (ord1 j).
- move=> i j H. rewrite !mxE. apply: U. by rewrite /= !add1n ltnS.
- move=> i. rewrite !mxE. exact: P.
- exact: P.
Qed.
Lemma gram_block n (r : F) (v : 'rV[F]_n) (R : 'M[F]_n) :
  (block_mx r%:M v 0 R)^T *m block_mx r%:M v 0 R = block_mx (r * r)%:M (r *: v) (r *: v^T) (v^T *m v + R^T *m R).
Proof. by rewrite tr_block_mx mulmx_block trmx0 !mul0mx !addr0 tr_scalar_mx -scalar_mxM mul_scalar_mx mul_mx_scalar mulmx0 addr0. Qed.
Lemma chol_block n (r : F) (v : 'rV[F]_n) (A : 'M[F]_n) : 0 < r ->
  chol (block_mx (r * r)%:M (r *: v) (r *: v^T) (v^T *m v + A) : 'M[F]_(1 + n)) = if chol A is Some R then Some (block_mx r%:M v 0 R : 'M[F]_(1 + n)) else None.
Proof.
move=> R0. rewrite cholS. set B := block_mx _ _ _ _. have -> : B 0 0 = r * r.
  have -> : 0 = lshift n 0 :> 'I_(1 + n) by apply: val_inj. by rewrite /B block_mxEul mxE eqxx mulr1n.
rewrite mulr_gt0 //. have -> : Num.sqrt (r * r) = r by rewrite -expr2 sqrtr_sqr gtr0_norm.
rewrite /B block_mxKur block_mxKdr. have -> : r^-1 *: (r *: v) = v by rewrite scalerA mulVf ?scale1r // gt_eqF.
by rewrite [_ + A]addrC addrK.
Qed.
(** the factor is the only one *)
Theorem C73_cholesky_unique : forall n (S : 'M[F]_n) R, upper R -> (forall i, 0 < R i i) -> R^T *m R = S -> cholesky S = ok R.
Proof.
move=> n S R U P E. suff H : chol S = Some R by rewrite /cholesky H. elim: n S R U P E => [|n IH] S R U P <-; first by congr Some; apply/matrixP => -[].
have B := upper_blocks U P.
case: B => r [v [R' [RB [U' [P' R0]]]]].
have -> : R^T *m R = (block_mx (r * r)%:M (r *: v) (r *: v^T) (v^T *m v + R'^T *m R') : 'M[F]_(1 + n)) by rewrite -gram_block -RB.
rewrite chol_block // (IH _ R') //. congr Some. by symmetry.
Qed.

Lemma ln_1 ln : is_log ln -> ln 1 = 0.
Proof. move=> L. have := L 1 1 ltr01 ltr01. rewrite mulr1 => /eqP. by rewrite -subr_eq0 opprD addrA subrr sub0r oppr_eq0 => /eqP. Qed.
Lemma ln_prod ln n (f : 'I_n -> F) : is_log ln -> (forall i, 0 < f i) -> ln (\prod_i f i) = \sum_i ln (f i).
Proof.
move=> L P. suff [] : 0 < \prod_i f i /\ ln (\prod_i f i) = \sum_i ln (f i) by [].
apply: (big_ind2 (fun a b => 0 < a /\ ln a = b)); first by rewrite ltr01 ln_1.
  by move=> a b c d [A <-] [C <-]; rewrite mulr_gt0 // L.
by move=> i _; split.
Qed.
Lemma ln_det_gram ln n (R : 'M[F]_n) : is_log ln -> upper R -> (forall i, 0 < R i i) -> ln (\det (R^T *m R)) = 2%:R * \sum_i ln (R i i).
Proof.
move=> L U P. have D : 0 < \det R by rewrite upper_det // prodr_gt0. rewrite det_mulmx det_tr L // upper_det // ln_prod //. by rewrite mulr_natl mulr2n.
Qed.
Theorem C73_logdet : forall (ln : F -> F), is_log ln -> forall n (A : 'M[F]_n), A^T = A ->
  (posdef A -> 0 < \det A /\ logdet_pdmat ln A = ok (ln (\det A))) /\ (~ posdef A -> logdet_pdmat ln A = err linalg_error).
Proof.
move=> ln L n A SY. have [C1 [C2 C3]] := C73_cholesky SY. split => [/C1 [R E]|/C2 E]; rewrite /logdet_pdmat E //=.
have [U [P G]] := C3 _ E. rewrite -{2}G ln_det_gram //. split=> //. rewrite -G det_mulmx det_tr upper_det // -expr2 exprn_gt0 // prodr_gt0 //.
Qed.
(** invert_pdmat: the functions multiply by the inverse, and the inverse and the log-determinant are right, whichever way it is called *)
Theorem C73_invert_pdmat : forall (ln : F -> F), is_log ln -> forall n (A : 'M[F]_n) right_inv, A^T = A ->
  (~ posdef A -> invert_pdmat ln A right_inv = err linalg_error) /\
  (posdef A -> exists p, invert_pdmat ln A right_inv = ok p /\
    (forall m (x : 'M[F]_(m, n)), p_right p x *m A = x) /\ (forall m (x : 'M[F]_(n, m)), A *m p_left p x = x) /\
    p_inv p *m A = 1%:M /\ p_logdet p = ln (\det A) /\ cholesky A = ok (p_chol p)).
Proof.
move=> ln L n A ri SY. have [C1 [C2 C3]] := C73_cholesky SY. split => [/C2 E|D]; first by rewrite /invert_pdmat E.
have [R E] := C1.1 D. have [U [P G]] := C3 _ E. have UA := posdef_unit D. rewrite /invert_pdmat E /=. eexists; split; first reflexivity. rewrite /=.
have LF : forall m (x : 'M[F]_(n, m)), A *m cho_solve R x = x by move=> m x; rewrite /cho_solve G mulmxA mulmxV // mul1mx.
have RT : forall m (x : 'M[F]_(m, n)), (cho_solve R x^T)^T *m A = x by move=> m x; rewrite -{1}SY -trmx_mul LF trmxK.
split=> //; split=> //; split; last by rewrite -{1}G ln_det_gram.
case: ri; first exact: RT. by rewrite /cho_solve G mulmx1 mulVmx.
Qed.
(** triangular matrices *)
Definition triangular {n} (lower : bool) (A : 'M[F]_n) : Prop := forall i j : 'I_n, (if lower then (i < j)%N else (j < i)%N) -> A i j = 0.
Lemma tri_id n lower (A : 'M[F]_n) : triangular lower A -> tri lower A = A.
Proof.
move=> T. apply/matrixP=> i j. rewrite mxE. case: lower T => T; case: ifP => // /negbT; rewrite -ltnNge => H; symmetry; exact: T.
Qed.
Lemma triangular_tr n lower (A : 'M[F]_n) : triangular lower A -> triangular (~~ lower) A^T.
Proof. move=> T i j H. rewrite mxE. apply: T. by case: lower H. Qed.
Lemma triangular_det n lower (A : 'M[F]_n) : triangular lower A -> \det A = \prod_i A i i.
Proof.
case: lower => T; last exact: upper_det. rewrite -det_tr upper_det; first by apply: eq_bigr => i _; rewrite mxE. move=> i j H. rewrite mxE. exact: T.
Qed.
Theorem C73_invert_trimat : forall (ln : F -> F), is_log ln -> forall n (A : 'M[F]_n) lower, triangular lower A ->
  ((forall i, A i i != 0) ->
    (forall m (x : 'M[F]_(m, n)), exists y, tri_right A lower x = ok y /\ y *m A = x) /\
    (forall m (x : 'M[F]_(n, m)), exists y, tri_left A lower x = ok y /\ A *m y = x) /\
    (forall right_inv, exists B, tri_inv A lower right_inv = ok B /\ B *m A = 1%:M)) /\
  ((forall i, 0 < A i i) -> tri_logdet ln A = ln (\det A)) /\
  (~ (forall i, A i i != 0) -> (forall m (x : 'M[F]_(m, n)), tri_right A lower x = err linalg_error) /\ (forall m (x : 'M[F]_(n, m)), tri_left A lower x = err linalg_error)).
Proof.
move=> ln L n A lower T. split; [|split].
- move=> P. have UA : A \in unitmx. rewrite unitmxE (triangular_det T) unitfE. apply/prodf_neq0 => i _. exact: P.
  have LF : forall m (x : 'M[F]_(n, m)), exists y, tri_left A lower x = ok y /\ A *m y = x.
    move=> m x. rewrite /tri_left /solve_triangular. case: forallP => [_|[]//]. eexists; split; first reflexivity. by rewrite tri_id // mulKVmx.
  have RT : forall m (x : 'M[F]_(m, n)), exists y, tri_right A lower x = ok y /\ y *m A = x.
    move=> m x. rewrite /tri_right /solve_triangular. case: forallP => [_|[]]; last by move=> i; rewrite mxE; exact: P.
    eexists; split; first reflexivity. by rewrite (tri_id (triangular_tr T)) trmx_mul trmxK trmx_inv trmxK mulmxKV.
  split=> //; split=> // -[]; rewrite /tri_inv; first exact: RT.
  have [y [E H]] := LF n 1%:M. exists y. split=> //. exact: mulmx1C.
- move=> P. by rewrite (triangular_det T) ln_prod.
- move=> N. split=> m x; rewrite /tri_right /tri_left /solve_triangular; case: forallP => // H; case: N => // i. have := H i. by rewrite mxE.
Qed.
(** *** Variance flooring *)
Lemma orth_tr n (u : 'M[F]_n) : u^T *m u = 1%:M -> u *m u^T = 1%:M. Proof. exact: mulmx1C. Qed.
Lemma form_id n (y : 'rV[F]_n) : form 1%:M y y = 0 -> y = 0.
Proof. rewrite -[1%:M]mulmx1 -{2}[1%:M]trmx1 => /form_sq_eq0. by rewrite mulmx1. Qed.
Lemma form_id_ge0 n (y : 'rV[F]_n) : 0 <= form 1%:M y y.
Proof. rewrite -[1%:M]mulmx1 -{2}[1%:M]trmx1. exact: form_sq_ge0. Qed.
(** the singular value decomposition of a positive semidefinite matrix is an eigendecomposition *)
Lemma svd_psd n (T : 'M[F]_n) ud : possemi T -> is_svd T ud -> T = ud.1 *m diag_mx ud.2 *m ud.1^T.
Proof.
case: ud => u d [SY H] [v /= [UU [VV [E D]]]].
have T2 : T *m T = u *m (diag_mx d *m diag_mx d) *m u^T.
  rewrite -{2}SY {1}E {1}E !trmx_mul trmxK tr_diag_mx. rewrite !mulmxA -[_ *m v^T *m v]mulmxA VV mulmx1 -!mulmxA. by [].
suff K : u^T *m T = diag_mx d *m u^T. by rewrite -mulmxA -K mulmxA orth_tr // mul1mx.
apply/row_matrixP => i. rewrite row_mul. set e := row i u^T. rewrite row_mul row_diag_mx -scalemxAl -rowE -/e.
have E2 : e *m T *m T = (d 0 i * d 0 i) *: e.
  have M2 : u^T *m T *m T = diag_mx d *m (diag_mx d *m u^T) by rewrite -mulmxA T2 !mulmxA UU mul1mx.
  rewrite /e -!row_mul M2 row_mul row_diag_mx -scalemxAl -rowE row_mul row_diag_mx -scalemxAl -rowE scalerA. by [].
set y := e *m T - d 0 i *: e. suff : y = 0 by move/eqP; rewrite subr_eq0 => /eqP.
have YT : y *m T = - d 0 i *: y. rewrite /y mulmxBl E2 -scalemxAl scalerBr scalerA !scaleNr !mulNr scaleNr opprK addrC. by [].
have N := H y. rewrite /form YT -scalemxAl mxE in N.
have N1 : form 1%:M y y = (y *m y^T) 0 0 by rewrite /form mulmx1.
case: (eqVneq (d 0 i) 0) => [Z|NZ].
  apply: form_id. rewrite N1 {2}/y Z scale0r subr0 trmx_mul SY mulmxA YT Z oppr0 scale0r mul0mx mxE. by [].
have DP : 0 < d 0 i by rewrite lt_def NZ D. apply: form_id. apply/eqP. rewrite eq_le form_id_ge0 andbT N1.
move: N. rewrite mulNr oppr_ge0. by rewrite pmulr_rle0.
Qed.
Lemma form_diag n (u : 'M[F]_n) (c : 'rV[F]_n) w : form (u *m diag_mx c *m u^T) w w = \sum_j c 0 j * ((w *m u) 0 j) ^+ 2.
Proof.
rewrite /form !mulmxA. have -> : w *m u *m diag_mx c *m u^T *m w^T = (w *m u) *m (diag_mx c *m (w *m u)^T) by rewrite trmx_mul !mulmxA.
rewrite mxE. apply: eq_bigr => j _. rewrite mul_diag_mx !mxE expr2. rewrite mulrCA. by [].
Qed.
Lemma diag_sym n (u : 'M[F]_n) (c : 'rV[F]_n) : (u *m diag_mx c *m u^T)^T = u *m diag_mx c *m u^T.
Proof. by rewrite !trmx_mul trmxK tr_diag_mx mulmxA. Qed.
Lemma diag_semi n (u : 'M[F]_n) (c : 'rV[F]_n) : (forall j, 0 <= c 0 j) -> possemi (u *m diag_mx c *m u^T).
Proof.
move=> C. split; first exact: diag_sym. move=> w. rewrite form_diag. apply: sumr_ge0 => j _. apply: mulr_ge0 => //. exact: sqr_ge0.
Qed.
Lemma diag_sub n (u : 'M[F]_n) (c e : 'rV[F]_n) : u *m diag_mx c *m u^T - u *m diag_mx e *m u^T = u *m diag_mx (c - e) *m u^T.
Proof. by rewrite -mulmxBl -mulmxBr -linearB. Qed.
Lemma floor1E n (d : 'rV[F]_n) j : floor1 d 0 j = Num.max (d 0 j) 1.
Proof. by rewrite /floor1 mxE. Qed.
Lemma congr_semi n (C P : 'M[F]_n) : possemi P -> possemi (C^T *m P *m C).
Proof.
move=> [S H]. split; first by rewrite !trmx_mul trmxK S mulmxA. move=> w.
have -> : form (C^T *m P *m C) w w = form P (w *m C^T) (w *m C^T) by rewrite /form trmx_mul trmxK !mulmxA. exact: H.
Qed.
Lemma floor_core n (C S u : 'M[F]_n) d : C \in unitmx -> possemi S -> is_svd ((invmx C)^T *m S *m invmx C) (u, d) ->
  is_floored S (C^T *m C) (C^T *m ((u *m diag_mx (floor1 d)) *m u^T *m C)).
Proof.
move=> UC PS SV. set T := (invmx C)^T *m S *m invmx C in SV. have PT : possemi T by exact: congr_semi.
have TE := svd_psd PT SV. case: (SV) => v [/= UU [_ [_ DP]]]. rewrite /= in TE. set G := u *m diag_mx (floor1 d) *m u^T.
have CT : C^T *m (invmx C)^T = 1%:M by rewrite -trmx_mul mulVmx // trmx1.
have SE : S = C^T *m T *m C by rewrite /T !mulmxA CT mul1mx -mulmxA mulVmx // mulmx1.
have ID : 1%:M = u *m diag_mx (const_mx 1) *m u^T by rewrite diag_const_mx mulmx1 orth_tr.
have X1 : C^T *m (G *m C) - C^T *m C = C^T *m (G - 1%:M) *m C by rewrite mulmxBr mulmxBl mulmx1 mulmxA.
have X2 : C^T *m (G *m C) - S = C^T *m (G - T) *m C by rewrite {1}SE mulmxBr mulmxBl mulmxA.
have PX1 : possemi (C^T *m (G *m C) - C^T *m C).
  rewrite X1. apply: congr_semi. rewrite ID diag_sub. apply: diag_semi => j. rewrite mxE floor1E mxE mxE. by rewrite subr_ge0 le_maxr lexx orbT.
split; [|split; [|split; [|split]]].
- rewrite -[X in posdef X](subrK (C^T *m C)) addrC. apply: posdefD => //. exact: gram_posdef.
- exact: PX1.
- rewrite X2. apply: congr_semi. rewrite TE diag_sub. apply: diag_semi => j. rewrite mxE floor1E mxE. by rewrite subr_ge0 le_maxr lexx.
- move=> PF. have PT1 : possemi (T - 1%:M).
    have -> : T - 1%:M = (invmx C)^T *m (S - C^T *m C) *m invmx C.
      rewrite mulmxBr mulmxBl -/T. congr (_ - _). rewrite !mulmxA -trmx_mul mulmxV // trmx1 mul1mx mulmxV //. 
    exact: congr_semi.
  have D1 : forall j, 1 <= d 0 j.
    move=> j. have := PT1.2 (row j u^T). rewrite TE ID diag_sub form_diag -row_mul UU (bigD1 j) //= big1.
      rewrite !mxE eqxx expr1n mulr1 addr0 subr_ge0. by [].
    move=> i I. rewrite !mxE eq_sym (negbTE I) expr0n /= mulr0. by [].
  have -> : G = T. rewrite /G TE. congr (_ *m diag_mx _ *m _). apply/rowP => j. by rewrite floor1E (max_l (D1 j)).
  by rewrite mulmxA -SE.
- move=> w k H. set e := w *m C^T. have ET : e *m T = k *: e.
    rewrite /T /e !mulmxA -[w *m C^T *m _]mulmxA CT mulmx1 H -scalemxAl mulmxA -mulmxA mulmxV // mulmx1. by [].
  have EU : forall j, (e *m u) 0 j * d 0 j = k * (e *m u) 0 j.
    move=> j. have : e *m u *m diag_mx d = k *: (e *m u). rewrite -[LHS]mulmx1 -UU mulmxA -[in X in X *m u]mulmxA -[in X in X *m u]mulmxA.
      rewrite [u *m (diag_mx d *m u^T)]mulmxA -TE ET scalemxAl. by [].
    move/rowP/(_ j). rewrite mul_mx_diag !mxE. by [].
  have EG : e *m G = Num.max k 1 *: e.
    rewrite /G mulmxA mulmxA. have -> : e *m u *m diag_mx (floor1 d) = Num.max k 1 *: (e *m u).
      apply/rowP => j. rewrite mul_mx_diag [LHS]mxE [RHS]mxE floor1E. have := EU j. case: (eqVneq ((e *m u) 0 j) 0) => [->|NZ]; first by rewrite !mul0r !mulr0.
      rewrite mulrC => /(mulIf NZ) ->. by rewrite mulrC.
    by rewrite -scalemxAl -mulmxA orth_tr // mulmx1.
  rewrite mulmxA -/e mulmxA EG -scalemxAl mulmxA. by [].
Qed.
Lemma tri_inv_up n (C : 'M[F]_n) : upper C -> (forall i, C i i != 0) -> tri_inv C false false = ok (invmx C) /\ C \in unitmx.
Proof.
move=> U P. have T : triangular false C by []. split; last by rewrite unitmxE (triangular_det T) unitfE; apply/prodf_neq0 => i _; exact: P.
rewrite /tri_inv /tri_left /solve_triangular. case: forallP => [_|[]//]. by rewrite tri_id // mulmx1.
Qed.
(** the floor given as a matrix (LinAlgError if it is not positive definite), as its upper or lower Cholesky factor, or as a number *)
Theorem C73_varfloor : forall n (svd : 'M[F]_n -> 'M[F]_n * 'rV[F]_n), (forall T, is_svd T (svd T)) -> forall S : 'M[F]_n, possemi S ->
  (forall Fl lower, Fl^T = Fl -> (posdef Fl -> exists X, fullcov_varfloor svd S Fl false lower = ok X /\ is_floored S Fl X) /\
    (~ posdef Fl -> fullcov_varfloor svd S Fl false lower = err linalg_error)) /\
  (forall C, upper C -> (forall i, C i i != 0) -> exists X, fullcov_varfloor svd S C true false = ok X /\ is_floored S (C^T *m C) X) /\
  (forall C, upper C^T -> (forall i, C i i != 0) -> exists X, fullcov_varfloor svd S C true true = ok X /\ is_floored S (C *m C^T) X) /\
  (forall f, 0 < f -> is_floored S f%:M (fullcov_varfloor_scalar svd S f)).
Proof.
move=> n svd SV S PS. have K : forall C, upper C -> (forall i, C i i != 0) -> exists X,
  (let! ic := tri_inv C false false in let: (u, d) := svd (ic^T *m S *m ic) in let T := (u *m diag_mx (floor1 d)) *m u^T in ok (C^T *m (T *m C))) = ok X /\ is_floored S (C^T *m C) X.
  move=> C U P. have [E UC] := tri_inv_up U P. rewrite E /=. have := SV ((invmx C)^T *m S *m invmx C). case: (svd _) => u d SD. eexists; split; first reflexivity. exact: floor_core.
split; [|split; [|split]].
- move=> Fl lower SY. have [C1 [C2 C3]] := C73_cholesky SY. split => [/C1 [R E]|/C2 E]; rewrite /fullcov_varfloor E //=.
  have [U [P G]] := C3 _ E. have [|X [E1 H]] := K _ U; first by move=> i; rewrite gt_eqF. exists X. by rewrite -{1}G.
- move=> C U P. exact: K.
- move=> C U P. rewrite /fullcov_varfloor /=. have [|X] := K _ U; first by move=> i; rewrite mxE. rewrite trmxK. by exists X.
- move=> f F0. set C : 'M[F]_n := (Num.sqrt f)%:M. have S0 : 0 < Num.sqrt f by rewrite sqrtr_gt0. have SS : Num.sqrt f * Num.sqrt f = f by rewrite -expr2 sqr_sqrtr // ltW.
  have UC : C \in unitmx by rewrite unitmxE det_scalar unitfE expf_neq0 // gt_eqF.
  have IC : invmx C = ((Num.sqrt f)^-1)%:M by rewrite /C invmx_scalar.
  have CC : C^T *m C = f%:M by rewrite /C tr_scalar_mx -scalar_mxM SS.
  have := SV (f^-1 *: S). rewrite /fullcov_varfloor_scalar. case: (svd _) => u d SD.
  have := @floor_core n C S u d UC PS. rewrite CC. 
  have -> : (invmx C)^T *m S *m invmx C = f^-1 *: S by rewrite IC tr_scalar_mx mul_scalar_mx mul_mx_scalar scalerA -invfM SS.
  move=> /(_ SD). have -> // : C^T *m (u *m diag_mx (floor1 d) *m u^T *m C) = f *: (u *m diag_mx (floor1 d) *m u^T).
  by rewrite /C tr_scalar_mx mul_scalar_mx mul_mx_scalar scalerA SS.
Qed.
(** the version on Cholesky factors returns the Cholesky factor of the floored covariance *)
Theorem C73_varfloor_chol : forall n (svd : 'M[F]_n -> 'M[F]_n * 'rV[F]_n), (forall T, is_svd T (svd T)) -> forall cholS cholF : 'M[F]_n,
  (forall i, cholF i i != 0) ->
  (upper cholF -> exists R, fullcov_varfloor_from_cholS svd cholS cholF false = ok R /\ upper R /\ (forall i, 0 < R i i) /\
    is_floored (cholS^T *m cholS) (cholF^T *m cholF) (R^T *m R)) /\
  (upper cholF^T -> exists R, fullcov_varfloor_from_cholS svd cholS cholF true = ok R /\ upper R^T /\ (forall i, 0 < R i i) /\
    is_floored (cholS *m cholS^T) (cholF *m cholF^T) (R *m R^T)) /\
  (forall f, 0 < f ->
    (exists R, fullcov_varfloor_from_cholS_scalar svd cholS f false = ok R /\ upper R /\ (forall i, 0 < R i i) /\ is_floored (cholS^T *m cholS) (f ^+ 2)%:M (R^T *m R)) /\
    (exists R, fullcov_varfloor_from_cholS_scalar svd cholS f true = ok R /\ upper R^T /\ (forall i, 0 < R i i) /\ is_floored (cholS *m cholS^T) (f ^+ 2)%:M (R *m R^T))).
Proof.
move=> n svd SV cholS cholF P.
have PG : forall A : 'M[F]_n, possemi (A^T *m A). move=> A. split; first by rewrite trmx_mul trmxK. move=> w. rewrite -{2}[A]trmxK. exact: form_sq_ge0.
have K : forall A C : 'M[F]_n, upper C -> (forall i, C i i != 0) -> exists R,
  (let! ic := tri_inv C false false in let T := A *m ic in let: (u, d) := svd (T^T *m T) in let T := (u *m diag_mx (floor1 d)) *m u^T in cholesky (C^T *m (T *m C))) = ok R
    /\ upper R /\ (forall i, 0 < R i i) /\ is_floored (A^T *m A) (C^T *m C) (R^T *m R).
  move=> A C U Q. have [E UC] := tri_inv_up U Q. rewrite E /=. have := SV ((A *m invmx C)^T *m (A *m invmx C)).
  have EQ : (A *m invmx C)^T *m (A *m invmx C) = (invmx C)^T *m (A^T *m A) *m invmx C by rewrite trmx_mul !mulmxA.
  case: (svd _) => u d SD. have SD' := SD. rewrite EQ in SD'. have H := floor_core UC (PG A) SD'. have [R E1] := (C73_cholesky H.1.1).1.1 H.1.
  have [U1 [P1 G]] := (C73_cholesky H.1.1).2.2 _ E1. exists R. rewrite G. by split.
split; [|split].
- move=> U. have [R [E [U1 [P1 H]]]] := K cholS cholF U P. exists R. rewrite /fullcov_varfloor_from_cholS. move: E. case: (tri_inv _ _ _) => //= ic. case: (svd _) => u d ->. by [].
- move=> U. have P' : forall i, cholF^T i i != 0 by move=> i; rewrite mxE. have [R [E [U1 [P1 H]]]] := K cholS^T cholF^T U P'. exists R^T. rewrite /fullcov_varfloor_from_cholS.
  move: E. case: (tri_inv _ _ _) => //= ic. case: (svd _) => u d ->. rewrite !trmxK in H *. split=> //; split=> //; split=> // i. by rewrite mxE.
- have K2 : forall (A : 'M[F]_n) f, 0 < f -> exists R,
    (let T := f^-1 *: A in let: (u, d) := svd (T^T *m T) in let T := (u *m diag_mx (floor1 d)) *m u^T in cholesky (f ^+ 2 *: T)) = ok R
    /\ upper R /\ (forall i, 0 < R i i) /\ is_floored (A^T *m A) (f ^+ 2)%:M (R^T *m R).
    move=> A f F0 /=. set C : 'M[F]_n := f%:M. have U : upper C. move=> i j H. rewrite mxE. case: eqP H => [->|//]. by rewrite ltnn.
    have Q : forall i, C i i != 0. move=> i. by rewrite mxE eqxx gt_eqF.
    have [R] := K A C U Q. have [-> UC] := tri_inv_up U Q. rewrite /= {1}/C invmx_scalar mul_mx_scalar.
    have -> : C^T *m C = (f ^+ 2)%:M by rewrite /C tr_scalar_mx -scalar_mxM expr2.
    case: (svd _) => u d. rewrite /C tr_scalar_mx mul_scalar_mx mul_mx_scalar scalerA -expr2. by exists R.
  move=> f F0. split.
    have [R [E H]] := K2 cholS f F0. exists R. rewrite /fullcov_varfloor_from_cholS_scalar. move: E => /=. by case: (svd _) => u d ->.
  have [R [E [U1 [P1 H]]]] := K2 cholS^T f F0. exists R^T. rewrite /fullcov_varfloor_from_cholS_scalar. move: E => /=. case: (svd _) => u d ->.
  rewrite !trmxK in H *. split=> //; split=> //; split=> // i. by rewrite mxE.
Qed.
(** ln det X <= tr X - n, for any function with the two properties of the logarithm *)
Lemma lndet_le ln n (X : 'M[F]_n) : is_log ln -> (forall t, 0 < t -> ln t <= t - 1) -> posdef X -> ln (\det X) <= \tr X - n%:R.
Proof.
move=> L LE D. have [R E] := (C73_cholesky D.1).1.1 D. have [U [P G]] := (C73_cholesky D.1).2.2 _ E.
rewrite -{1}G ln_det_gram // -G. apply: (@le_trans _ _ (\sum_i (R i i * R i i - 1))).
  rewrite mulr_sumr. apply: ler_sum => i _. rewrite mulr_natl mulr2n -L //. apply: LE. exact: mulr_gt0.
rewrite sumrB sumr_const card_ord ler_add2r /mxtrace. apply: ler_sum => i _. rewrite mxE (bigD1 i) //= mxE ler_addl. apply: sumr_ge0 => j _. rewrite mxE -expr2. exact: sqr_ge0.
Qed.
End P.
Arguments form {F n}. Arguments posdef {F n}. Arguments possemi {F n}. Arguments upper {F n}.
Print Assumptions C73_cholesky. Print Assumptions C73_cholesky_unique. Print Assumptions C73_logdet. Print Assumptions C73_invert_pdmat.
Print Assumptions C73_invert_trimat. Print Assumptions C73_varfloor. Print Assumptions C73_varfloor_chol.

(** ** Witnesses *)
Section W.
Variable F : rcfType.
Definition S2 : 'M[F]_2 := \matrix_(i, j) (if (i == 0) && (j == 0) then 4%:R else if (i == 0) || (j == 0) then 2%:R else 5%:R).
Definition R2 : 'M[F]_2 := \matrix_(i, j) (if i == 0 then (if j == 0 then 2%:R else 1) else if j == 0 then 0 else 2%:R).
Example C73_chol_witness : cholesky S2 = ok R2 /\ posdef S2 /\ ~ posdef (- S2).
Proof.
have G : R2^T *m R2 = S2.
  apply/matrixP => i j. rewrite !mxE !big_ord_recl big_ord0 !mxE. case: i => [[|[|//]]] i; case: j => [[|[|//]]] j; rewrite /= ?mulr0 ?mul0r ?mulr1 ?mul1r ?addr0 -?natrM ?add0r //.
have U : upper R2. move=> [[|[|//]] i] [[|[|//]] j] //= _. by rewrite mxE.
have P : forall i, 0 < R2 i i. move=> [[|[|//]] i]; by rewrite mxE /= ltr0n.
split; [|split].
- exact: C73_cholesky_unique.
- rewrite -G. apply: gram_posdef. exact: upper_unit.
- have PS : posdef S2 by rewrite -G; apply: gram_posdef; exact: upper_unit. move=> [_ H]. set v : 'rV[F]_2 := const_mx 1. have V : v != 0. apply/eqP => /rowP /(_ 0). rewrite !mxE => /eqP. by rewrite oner_eq0.
  have := H v V. rewrite /form mulmxN mulNmx mxE oppr_gt0. have := PS.2 v V. rewrite /form => A B. have := lt_trans A B. by rewrite ltxx.
Qed.
(** a singular value decomposition in one dimension; flooring 4 at 9 gives 9, at 1 gives 4 *)
Definition svd1 (T : 'M[F]_1) : 'M[F]_1 * 'rV[F]_1 := ((if 0 <= T 0 0 then 1 else - 1)%:M, const_mx `|T 0 0|).
Example C73_floor_witness : (forall T, is_svd T (svd1 T)) /\ possemi (4%:R%:M : 'M[F]_1) /\ upper (3%:R%:M : 'M[F]_1) /\
  fullcov_varfloor svd1 4%:R%:M (3%:R%:M : 'M[F]_1) true false = ok 9%:R%:M /\ fullcov_varfloor_scalar svd1 (4%:R%:M : 'M[F]_1) 1 = 4%:R%:M.
Proof.
have SV : forall T, is_svd T (svd1 T).
  move=> T. exists 1%:M. rewrite /svd1 /=. split; [|split; [|split]].
  - rewrite tr_scalar_mx -scalar_mxM. case: ifP => _; by rewrite ?mulrNN mulr1.
  - by rewrite trmx1 mulmx1.
  - rewrite trmx1 mulmx1 diag_const_mx -scalar_mxM [T]mx11_scalar. congr (_%:M). rewrite mxE mulr1n.
    case: lerP => H; first by rewrite mul1r ger0_norm. by rewrite mulN1r ltr0_norm // opprK.
  - move=> i. by rewrite mxE normr_ge0.
have PS : possemi (4%:R%:M : 'M[F]_1). split; first by rewrite tr_scalar_mx. move=> v. rewrite /form mul_mx_scalar -scalemxAl mxE. apply: mulr_ge0; first exact: ler0n.
  rewrite mxE. apply: sumr_ge0 => j _. rewrite mxE -expr2. exact: sqr_ge0.
have U : upper (3%:R%:M : 'M[F]_1). by move=> i j; rewrite !ord1.
have [_ [K [_ KS]]] := C73_varfloor SV PS. split=> //; split=> //; split=> //. split.
- have [|X [-> [_ [_ [_ [_ H]]]]]] := K _ U; first by move=> i; rewrite mxE eqxx pnatr_eq0. congr ok.
  have := H 1%:M (4%:R / 9%:R). rewrite !mul1mx. rewrite tr_scalar_mx -scalar_mxM -natrM scale_scalar_mx divfK ?pnatr_eq0 // => -> //.
  rewrite scale_scalar_mx. congr (_%:M). rewrite max_r ?mul1r //. by rewrite ler_pdivr_mulr ?ltr0n // mul1r ler_nat.
- have [_ [_ [_ [H _]]]] := KS 1 ltr01. apply: H. split; first by rewrite linearB /= !tr_scalar_mx.
  move=> v. rewrite -raddfB /= -(natrB F (isT : (1 <= 4)%N)). rewrite /form mul_mx_scalar -scalemxAl mxE. apply: mulr_ge0; first exact: ler0n.
  rewrite mxE. apply: sumr_ge0 => j _. rewrite mxE -expr2. exact: sqr_ge0.
Qed.
End W.
