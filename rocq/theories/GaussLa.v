(** Gaussian log densities with full precision matrices: completing the square, uniqueness, expectations of quadratic functions, the
    Gibbs inequality and maximum likelihood. Specification and lemmas shared by the PLDA theorems; nothing here models code. *)
From Verif Require Import RingF LinAlg LinAlgProps.
Set Warnings "-notation-overridden,-ambiguous-paths".
From mathcomp Require Import all_ssreflect all_algebra.
Set Implicit Arguments. Unset Strict Implicit. Unset Printing Implicit Defensive.
Import Order.TTheory GRing.Theory Num.Theory.
Local Open Scope ring_scope.

Lemma two_neq0 (F : rcfType) : 2%:R != 0 :> F. Proof. by rewrite pnatr_eq0. Qed.
Arguments two_neq0 {F}.
Ltac fr := move=> *; rewrite ?mulr2n; fnorm; ring.
Ltac ff := move=> *; rewrite ?mulr2n; fnorm; field; apply/eqP; exact: two_neq0.
Section G.
Variable F : rcfType.
Add Ring FRing' : (F_ring F). Add Ring FZRing' : (F_zring F). Add Field FField' : (F_field F). Add Field FZField' : (F_zfield F).
Variable ln : F -> F.
Variable c : F.
(** ** Specification *)
(** the logarithm of the Gaussian density with mean m and precision matrix P at y; c is log (2 pi) *)
Definition log_gauss {d} (P : 'M[F]_d) (m y : 'rV[F]_d) : F := 2%:R^-1 * (ln (\det P) - d%:R * c - form P (y - m) (y - m)).
(** what is used of the logarithm *)
Definition log_ok : Prop := is_log ln /\ forall t, 0 < t -> ln t <= t - 1.

(** ** Lemmas *)
Definition dot {d} (b y : 'rV[F]_d) : F := (b *m y^T) 0 0.
Lemma dotDl d (a b y : 'rV[F]_d) : dot (a + b) y = dot a y + dot b y. Proof. by rewrite /dot mulmxDl mxE. Qed.
Lemma dotDr d (a b y : 'rV[F]_d) : dot y (a + b) = dot y a + dot y b. Proof. by rewrite /dot linearD mulmxDr mxE. Qed.
Lemma dotZl d k (a y : 'rV[F]_d) : dot (k *: a) y = k * dot a y. Proof. by rewrite /dot -scalemxAl mxE. Qed.
Lemma dotNr d (a y : 'rV[F]_d) : dot a (- y) = - dot a y. Proof. by rewrite /dot linearN mulmxN mxE. Qed.
Lemma dotC d (a y : 'rV[F]_d) : dot a y = dot y a. Proof. by rewrite /dot -[a *m y^T]trmxK mxE trmx_mul trmxK. Qed.
Lemma form_dot d (P : 'M[F]_d) u v : form P u v = dot (u *m P) v. Proof. by []. Qed.
Lemma form_sub d (P : 'M[F]_d) y m : P^T = P -> form P (y - m) (y - m) = form P y y - 2%:R * form P m y + form P m m.
Proof.
move=> S. rewrite !formDl !formDr !formNl !formNr (formC y m S). have R1 : forall a b e : F, a - b + (- b - - e) = a - 2%:R * b + e by fr. exact: R1.
Qed.
Lemma sq_complete d (L : 'M[F]_d) b y : posdef L -> form L (y - b *m invmx L) (y - b *m invmx L) = form L y y - 2%:R * dot b y + form (invmx L) b b.
Proof.
move=> D. have U := posdef_unit D. rewrite form_sub ?D.1 //. congr (_ - _ * _ + _); first by rewrite form_dot mulmxKV.
by rewrite form_dot mulmxKV // dotC form_dot.
Qed.
Lemma det_pos d (P : 'M[F]_d) : posdef P -> 0 < \det P.
Proof. move=> D. have [R E] := (C73_cholesky D.1).1.1 D. have [U [PO <-]] := (C73_cholesky D.1).2.2 _ E. rewrite det_mulmx det_tr upper_det // -expr2 exprn_gt0 // prodr_gt0 //. Qed.
Lemma ln_inv a : is_log ln -> 0 < a -> ln a^-1 = - ln a.
Proof. move=> L A. apply/eqP. rewrite -addr_eq0 -L ?invr_gt0 // mulVf; [by rewrite (ln_1 L)|by rewrite gt_eqF]. Qed.
Lemma ln_det_inv d (P : 'M[F]_d) : is_log ln -> posdef P -> ln (\det (invmx P)) = - ln (\det P).
Proof. move=> L D. by rewrite det_inv ln_inv // det_pos. Qed.

(** two Gaussian log densities that differ by a constant are the same *)
Lemma form_ext d (P Q : 'M[F]_d) : P^T = P -> Q^T = Q -> (forall v, form P v v = form Q v v) -> P = Q.
Proof.
move=> SP SQ H. apply/matrixP => i j.
have E : forall A : 'M[F]_d, form A (delta_mx 0 i) (delta_mx 0 j) = A i j.
  move=> A. rewrite /form -rowE mxE (bigD1 j) //= !mxE !eqxx mulr1 big1 ?addr0 // => k K. rewrite !mxE (negbTE K) andbF mulr0. by [].
rewrite -(E P) -(E Q). set u := delta_mx 0 i. set v := delta_mx 0 j.
have := H (u + v). rewrite !formDl !formDr (formC v u SP) (formC v u SQ) (H u) (H v).
have R1 : forall a b x y : F, a + x + (x + b) = a + y + (y + b) -> x = y.
  move=> a b x y Q'. apply: (mulfI two_neq0). have R2 : forall a b x : F, a + x + (x + b) = 2%:R * x + (a + b) by fr.
  rewrite !R2 in Q'. exact: (addIr _ Q').
exact: R1.
Qed.
Lemma gauss_unique d (P P' : 'M[F]_d) m m' e e' : posdef P -> posdef P' -> (forall y, e + log_gauss P m y = e' + log_gauss P' m' y) -> P = P' /\ m = m' /\ e = e'.
Proof.
move=> D D' H.
have H2 : forall y, form P (y - m) (y - m) - form P' (y - m') (y - m') = 2%:R * (e - e') + (ln (\det P) - ln (\det P')).
  move=> y. have := H y. rewrite /log_gauss. set a := form P _ _. set b := form P' _ _. move=> Q.
  have R1 : forall e e' a b l l' k : F, e + 2%:R^-1 * (l - k - a) = e' + 2%:R^-1 * (l' - k - b) -> a - b = 2%:R * (e - e') + (l - l').
    move=> e0 e0' a0 b0 l l' k Q0. have R2 : forall e l k a : F, 2%:R * (e + 2%:R^-1 * (l - k - a)) = 2%:R * e + l - k - a by ff.
    have := congr1 (fun z => 2%:R * z) Q0. rewrite !R2 => Q1. apply/eqP. rewrite -subr_eq0. apply/eqP.
    have R3 : forall e e' l l' a b k : F, a - b - (2%:R * (e - e') + (l - l')) = (2%:R * e' + l' - k - b) - (2%:R * e + l - k - a) by fr.
    rewrite (R3 _ _ _ _ _ _ k) Q1 subrr. by [].
  exact: (R1 _ _ _ _ _ _ _ Q).
set K := 2%:R * (e - e') + _ in H2.
have H3 : forall y, form P y y - 2%:R * form P m y + form P m m - (form P' y y - 2%:R * form P' m' y + form P' m' m') = K.
  move=> y. rewrite -!form_sub ?D.1 ?D'.1 //.
have K0 := H3 0. rewrite !form0r !mulr0 !subr0 !add0r in K0.
have Q2 : forall y, form P y y = form P' y y.
  move=> y. have A := H3 y. have C := H3 (- y). rewrite !formNl !formNr !opprK in C.
  have R1 : forall a b p q x y k : F, x - y = k -> a - 2%:R * p + x - (b - 2%:R * q + y) = k -> a - 2%:R * - p + x - (b - 2%:R * - q + y) = k -> a = b.
    move=> a b p q x z k X1 X2 X3. apply: (mulfI two_neq0). apply/eqP. rewrite -subr_eq0. apply/eqP.
    have R2 : forall a b p q x y k : F, 2%:R * a - 2%:R * b = (a - 2%:R * p + x - (b - 2%:R * q + y)) + (a - 2%:R * - p + x - (b - 2%:R * - q + y)) - (x - y) - (x - y) by fr.
    rewrite (R2 a b p q x z k) X1 X2 X3. rewrite addrK subrr. by [].
  exact: (R1 _ _ _ _ _ _ _ K0 A C).
have PE := form_ext D.1 D'.1 Q2. subst P'. split=> //.
have ME : m = m'.
  have U := posdef_unit D. rewrite -[m](mulmxK U) -[m'](mulmxK U). congr (_ *m _). apply/rowP => j.
  have E : forall v : 'rV[F]_d, dot v (delta_mx 0 j) = v 0 j.
    move=> v. rewrite /dot mxE (bigD1 j) //= !mxE !eqxx mulr1 big1 ?addr0 // => k KK. rewrite !mxE (negbTE KK) andbF mulr0. by [].
  rewrite -!E -!form_dot. have A := H3 (delta_mx 0 j). set y := delta_mx 0 j in A *.
  have R1 : forall a p q x y k : F, x - y = k -> a - 2%:R * p + x - (a - 2%:R * q + y) = k -> p = q.
    move=> a p q x z k X1 X2. apply: (mulfI two_neq0). apply/eqP. rewrite eq_sym -subr_eq0. apply/eqP.
    have R2 : forall a p q x y : F, 2%:R * q - 2%:R * p = (a - 2%:R * p + x - (a - 2%:R * q + y)) - (x - y) by fr.
    rewrite (R2 a p q x z) X2 X1 subrr. by [].
  exact: (R1 _ _ _ _ _ _ K0 A).
subst m'. split=> //. have := H m. move/addIr. by [].
Qed.

(** expectation of a quadratic function of a Gaussian vector with mean m and covariance A'A, as a finite sum *)
Definition Ex {d} (A : 'M[F]_d) (m : 'rV[F]_d) (f : 'rV[F]_d -> F) : F :=
  f m + 2%:R^-1 * \sum_k (f (m + row k A) + f (m - row k A) - 2%:R * f m).
Lemma Ex_ext d (A : 'M[F]_d) m f g : (forall y, f y = g y) -> Ex A m f = Ex A m g.
Proof. move=> H. rewrite /Ex H. congr (_ + _ * _). apply: eq_bigr => k _. by rewrite !H. Qed.
Lemma ExD d (A : 'M[F]_d) m f g : Ex A m (fun y => f y + g y) = Ex A m f + Ex A m g.
Proof.
rewrite /Ex. have -> : \sum_k (f (m + row k A) + g (m + row k A) + (f (m - row k A) + g (m - row k A)) - 2%:R * (f m + g m)) =
  \sum_k (f (m + row k A) + f (m - row k A) - 2%:R * f m) + \sum_k (g (m + row k A) + g (m - row k A) - 2%:R * g m).
  rewrite -big_split /=. apply: eq_bigr => k _. have R1 : forall a b e f g h : F, a + b + (e + f) - 2%:R * (g + h) = a + e - 2%:R * g + (b + f - 2%:R * h) by fr. exact: R1.
rewrite mulrDr addrACA. by [].
Qed.
Lemma ExZ d (A : 'M[F]_d) m k f : Ex A m (fun y => k * f y) = k * Ex A m f.
Proof.
rewrite /Ex mulrDr. congr (_ + _). rewrite [RHS]mulrCA. congr (_ * _). rewrite mulr_sumr. apply: eq_bigr => i _.
have R1 : forall k a b e : F, k * a + k * b - 2%:R * (k * e) = k * (a + b - 2%:R * e) by fr. exact: R1.
Qed.
Lemma Ex_const d (A : 'M[F]_d) m k : Ex A m (fun _ => k) = k.
Proof. rewrite /Ex big1 ?mulr0 ?addr0 // => i _. have R1 : forall k : F, k + k - 2%:R * k = 0 by fr. exact: R1. Qed.
Lemma Ex_sum d (A : 'M[F]_d) m T (s : seq T) (f : T -> 'rV[F]_d -> F) : Ex A m (fun y => \sum_(t <- s) f t y) = \sum_(t <- s) Ex A m (f t).
Proof.
elim: s => [|t s IH]. by rewrite big_nil -[RHS](Ex_const A m 0); apply: Ex_ext => y; rewrite big_nil.
rewrite big_cons -IH -ExD. apply: Ex_ext => y. by rewrite big_cons.
Qed.
Lemma form_tr d (A P : 'M[F]_d) : \sum_k form P (row k A) (row k A) = \tr (A *m P *m A^T).
Proof.
rewrite /mxtrace. apply: eq_bigr => k _. rewrite /form -row_mul. rewrite !mxE. apply: eq_bigr => j _. by rewrite !mxE.
Qed.
(** the mean of a quadratic form of an affine function *)
Lemma Ex_form d e (A : 'M[F]_d) m (V : 'M[F]_(d, e)) (P : 'M[F]_e) a :
  Ex A m (fun y => form P (y *m V - a) (y *m V - a)) = form P (m *m V - a) (m *m V - a) + \tr (A *m (V *m P *m V^T) *m A^T).
Proof.
rewrite /Ex. congr (_ + _). rewrite -form_tr mulr_sumr. apply: eq_bigr => k _.
have -> : (m + row k A) *m V - a = (m *m V - a) + row k A *m V by rewrite mulmxDl addrAC.
have -> : (m - row k A) *m V - a = (m *m V - a) - row k A *m V by rewrite mulmxBl addrAC.
set u := m *m V - a. set r := row k A *m V.
have -> : form (V *m P *m V^T) (row k A) (row k A) = form P r r by rewrite /form /r trmx_mul !mulmxA.
clearbody u r. rewrite !formDl !formDr !formNl !formNr.
have R1 : forall a b b' e : F, 2%:R^-1 * (a + b + (b' + e) + (a - b + (- b' - - e)) - 2%:R * a) = e by ff.
exact: R1.
Qed.
Lemma Ex_form1 d (A : 'M[F]_d) m (P : 'M[F]_d) a : Ex A m (fun y => form P (y - a) (y - a)) = form P (m - a) (m - a) + \tr (A *m P *m A^T).
Proof.
have := Ex_form A m 1%:M P a. rewrite mulmx1 mul1mx trmx1 mulmx1 => <-. apply: Ex_ext => y. by rewrite mulmx1.
Qed.
Lemma Ex_gauss d (A : 'M[F]_d) m P a : Ex A m (log_gauss P a) = 2%:R^-1 * (ln (\det P) - d%:R * c - (form P (m - a) (m - a) + \tr (A *m P *m A^T))).
Proof.
rewrite -Ex_form1. have -> : Ex A m (log_gauss P a) = Ex A m (fun y => 2%:R^-1 * ((ln (\det P) - d%:R * c) + (- 1) * form P (y - a) (y - a))).
  apply: Ex_ext => y. by rewrite /log_gauss mulN1r.
by rewrite ExZ ExD Ex_const ExZ mulN1r.
Qed.
(** a square root of the covariance *)
Definition root_of {d} (A P : 'M[F]_d) : Prop := A^T *m A = invmx P /\ A \in unitmx.
Lemma root_ex d (P : 'M[F]_d) : posdef P -> exists A, root_of A P.
Proof.
move=> D. have DI := posdef_inv D. have [R E] := (C73_cholesky DI.1).1.1 DI. have [U [PO G]] := (C73_cholesky DI.1).2.2 _ E. exists R. split=> //. exact: upper_unit.
Qed.
Lemma root_tr d (A P Q : 'M[F]_d) : root_of A P -> \tr (A *m Q *m A^T) = \tr (Q *m invmx P).
Proof. move=> [E _]. by rewrite -mulmxA mxtrace_mulC -mulmxA E. Qed.
Lemma congr_posdef d (A Q : 'M[F]_d) : A \in unitmx -> posdef Q -> posdef (A *m Q *m A^T).
Proof.
move=> U [S H]. split; first by rewrite !trmx_mul trmxK S mulmxA. move=> v V.
have -> : form (A *m Q *m A^T) v v = form Q (v *m A) (v *m A) by rewrite /form trmx_mul !mulmxA.
apply: H. apply: contra V => /eqP Z. by rewrite -[v](mulmxK U) Z mul0mx.
Qed.
Lemma ml_lemma d (P S : 'M[F]_d) : log_ok -> posdef P -> posdef S -> ln (\det P) - \tr (P *m S) <= ln (\det (invmx S)) - d%:R.
Proof.
move=> [L LE] D DS. have U := posdef_unit DS. have [A RA] := root_ex (posdef_inv DS). have := lndet_le L LE (congr_posdef RA.2 D).
have AS : A^T *m A = S by rewrite RA.1 invmxK. rewrite (root_tr _ RA) invmxK.
have -> : \det (A *m P *m A^T) = \det P * \det S by rewrite -AS !det_mulmx [\det A * _]mulrC -mulrA [\det A * _]mulrC.
rewrite L ?det_pos // ln_det_inv //. move=> H.
have R1 : forall a b t n : F, a + b <= t - n -> a - t <= - b - n.
  move=> a b t n Q. rewrite -subr_ge0. have R3 : forall a b t n : F, - b - n - (a - t) = t - n - (a + b) by fr. rewrite R3. by rewrite subr_ge0.
exact: R1.
Qed.
Lemma gibbs d (P P' A : 'M[F]_d) m m' : log_ok -> posdef P -> posdef P' -> root_of A P -> Ex A m (log_gauss P' m') <= Ex A m (log_gauss P m).
Proof.
move=> LO D D' RA. rewrite !Ex_gauss subrr form0l add0r !(root_tr _ RA) mulmxV ?posdef_unit // mxtrace1.
have M := ml_lemma LO D' (posdef_inv D). rewrite invmxK in M. have Q : 0 <= form P' (m - m') (m - m') by exact: (posdef_semi D').2.
apply: ler_wpmul2l; first by rewrite invr_ge0 ler0n.
have R1 : forall a b k q t n : F, 0 <= q -> a - t <= b - n -> a - k - (q + t) <= b - k - n.
  move=> a b k q t n Q0 H. rewrite -subr_ge0 in H. rewrite -subr_ge0. have R3 : forall a b k q t n : F, b - k - n - (a - k - (q + t)) = (b - n - (a - t)) + q by fr. rewrite R3.
  exact: addr_ge0.
exact: R1.
Qed.
(** one class of the EM argument *)
Lemma em_step d (f f' : 'rV[F]_d -> F) e e' (P P' A : 'M[F]_d) m m' : log_ok -> posdef P -> posdef P' -> root_of A P ->
  (forall y, f y = e + log_gauss P m y) -> (forall y, f' y = e' + log_gauss P' m' y) -> Ex A m f' - Ex A m f <= e' - e.
Proof.
move=> LO D D' RA H H'. rewrite (Ex_ext _ _ H) (Ex_ext _ _ H') !ExD !Ex_const. have G := gibbs m m' LO D D' RA.
have R1 : forall a b k k' : F, a <= b -> k' + a - (k + b) <= k' - k.
  move=> a b k k' Q. rewrite -subr_ge0 in Q. rewrite -subr_ge0. have R3 : forall a b k k' : F, k' - k - (k' + a - (k + b)) = b - a by fr. rewrite R3. by [].
exact: R1.
Qed.
End G.
