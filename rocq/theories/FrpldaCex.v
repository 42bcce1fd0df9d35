(** The EM of the full-rank PLDA can decrease the ELBO (C75): with the within-class matrix updated, and with the mean fixed. *)
From Verif Require Import RingF LinAlg LinTrans LinAlgProps GaussLa Frplda FrpldaProps FrpldaEm.
Set Warnings "-notation-overridden,-ambiguous-paths".
From mathcomp Require Import all_ssreflect all_algebra.
Set Implicit Arguments. Unset Strict Implicit. Unset Printing Implicit Defensive.
Import Order.TTheory GRing.Theory Num.Theory.
Local Open Scope ring_scope.

Ltac frn := move=> *; rewrite ?mulrS ?mulr0n; fnorm; ring.
Ltac pos := repeat first [exact: ltr01 | apply: addr_gt0 | apply: mulr_gt0 | by rewrite ltr0n].
Ltac ffn := move=> *; rewrite ?mulrS ?mulr0n; fnorm; field; repeat split; apply/eqP; rewrite ?gt_eqF //; pos.
Lemma num_eq (F : rcfType) (x y : F) : (forall a : F, a * x = a * y) -> x = y.
Proof. move=> H. have := H 1. by rewrite !mul1r. Qed.
Section P.
Variable F : rcfType.
Add Ring FRing' : (F_ring F). Add Ring FZRing' : (F_zring F). Add Field FField' : (F_field F). Add Field FZField' : (F_zfield F).
Variable ln : F -> F.
Variable c : F.
Notation total := FrpldaProps.total.
Notation ev := (FrpldaProps.ev ln c).
(** ** One-dimensional models *)
Lemma posdef1 (a : F) : 0 < a -> posdef (a%:M : 'M[F]_1).
Proof.
move=> A. split; first exact: tr_scalar_mx. move=> v V. rewrite /form mul_mx_scalar -scalemxAl mxE mulr_gt0 // mxE big_ord1 mxE -expr2.
rewrite lt_def sqr_ge0 andbT expf_eq0 /=. apply: contra V => /eqP E. apply/eqP/rowP => j. by rewrite [j]ord1 E mxE.
Qed.
Definition sgn (k : 'I_2) : F := if k == ord0 then 1 else -1.
(** two classes: {3, 1} and {-3, -1} *)
Definition cls2 (k : 'I_2) : seq (F * 'rV[F]_1) := [:: (1, (3%:R * sgn k)%:M); (1, (sgn k)%:M)].
Definition D2 : stats F 2 1 := Stats (const_mx 2%:R) (\matrix_(k, j) (4%:R * sgn k)) (20%:R)%:M.
Lemma sgn_sq k : sgn k * sgn k = 1. Proof. rewrite /sgn. case: eqP => _; by rewrite ?mulrNN mulr1. Qed.
Lemma total2 k : total (cls2 k) = 2%:R. Proof. by rewrite /total !big_cons big_nil addr0. Qed.
Lemma first2 k : first (cls2 k) = (4%:R * sgn k)%:M.
Proof.
rewrite /first !big_cons big_nil /= !scale1r addr0 -raddfD /=. congr (_%:M). have Q : forall s : F, 3%:R * s + s = 4%:R * s by frn. exact: Q.
Qed.
Lemma sm1 (a b : F) : (a%:M : 'M[F]_1) *m b%:M = (a * b)%:M. Proof. by rewrite mul_scalar_mx scale_scalar_mx. Qed.
Lemma second2 k : second (cls2 k) = (10%:R)%:M.
Proof.
rewrite /second !big_cons big_nil /= !scale1r addr0 !tr_scalar_mx !sm1 -raddfD /= mulrACA sgn_sq mulr1. congr (_%:M). have Q : forall a : F, 3%:R * 3%:R * a + a = 10%:R * a by frn. by have := Q 1; rewrite !mulr1.
Qed.
Lemma stats2 : stats_of cls2 D2.
Proof.
split; first by move=> k; rewrite mxE total2. split; last by rewrite big_ord_recl big_ord1 !second2 -raddfD /= -natrD.
move=> k. rewrite first2. apply/rowP => j. by rewrite !mxE [j]ord1 eqxx mulr1n.
Qed.
Lemma nonneg2 k : nonneg (cls2 k).
Proof. move=> o. rewrite !inE => /orP [] /eqP -> /=; exact: ler01. Qed.
Definition p1 (b w : F) : plda F 1 := Plda 0 b%:M w%:M.
Lemma p1_ok b w : 0 < b -> 0 < w -> model_ok (p1 b w). Proof. move=> *. split; exact: posdef1. Qed.
Lemma inv1 (a : F) : invmx (a%:M : 'M[F]_1) = a^-1%:M. Proof. exact: invmx_scalar. Qed.
Lemma prec1 b w k : prec (p1 b w) (total (cls2 k)) = (b + 2%:R * w)%:M.
Proof. by rewrite /prec total2 /= scale_scalar_mx -raddfD. Qed.
Lemma gam1 b w k : gam (p1 b w) (first (cls2 k)) = (4%:R * sgn k * w)%:M.
Proof. by rewrite /gam first2 /= mul0mx addr0 sm1. Qed.
Definition m1 (b w : F) : F := 4%:R * w / (b + 2%:R * w).
Lemma mk1 b w k : mk (p1 b w) (cls2 k) = (m1 b w * sgn k)%:M.
Proof. rewrite /mk prec1 gam1 inv1 sm1. congr (_%:M). rewrite /m1. have Q : forall a b e f : F, a * b * e * f = a * e * f * b by fr. exact: Q. Qed.
Lemma form1 (a x y : F) : form (a%:M : 'M[F]_1) x%:M y%:M = x * a * y.
Proof. by rewrite /form tr_scalar_mx !sm1 mxE eqxx mulr1n. Qed.
Lemma ev1 b w k : ev (p1 b w) (cls2 k) =
  2%:R^-1 * (ln b - c + 2%:R * (ln w - c) - 10%:R * w - (ln (b + 2%:R * w) - c) + 16%:R * w * w / (b + 2%:R * w)).
Proof.
rewrite /FrpldaProps.ev prec1 gam1 inv1 total2 form1 !det_scalar1 /= form0l subr0 !mul1r. congr (_ * (_ - _ - _ + _)).
  rewrite !big_cons big_nil /= !form1 addr0 !mul1r. have Q : forall s : F, s * s = 1 -> 3%:R * s * w * (3%:R * s) + s * w * s = 10%:R * w.
    move=> s S. transitivity (10%:R * w * (s * s)); last by rewrite S mulr1. frn.
  exact: Q (sgn_sq k).
have Q : forall s l : F, s * s = 1 -> 4%:R * s * w * l * (4%:R * s * w) = 16%:R * w * w * l.
  move=> s l S. transitivity (16%:R * w * w * l * (s * s)); last by rewrite S mulr1. frn.
exact: Q (sgn_sq k).
Qed.

Definition s1 (b w : F) l : estats F 1 := let L := b + 2%:R * w in let m := m1 b w in
  Estats 4%:R 2%:R (20%:R)%:M l 0 (4%:R * m * m)%:M (8%:R * m)%:M (2%:R * (L^-1 + m * m))%:M.
Lemma estep1 bb b w : is_log ln -> 0 < b -> 0 < w -> exists l, Estep ln c (p1 b w) D2 bb = ok (s1 b w l).
Proof.
move=> LN B0 W0. have := @estep_ok F ln c _ _ (p1 b w) D2 cls2 bb LN (p1_ok B0 W0) stats2 nonneg2 => ->. eexists. congr (ok _). rewrite /s1 /=.
have SG : sgn ord0 = 1 /\ sgn (lift ord0 ord0) = -1 by []. case: SG => SG0 SG1.
f_equal; rewrite !big_ord_recl !big_ord0 ?addr0 ?total2 ?first2 ?second2 /Lk ?prec1 ?inv1 ?mk1 ?SG0 ?SG1 ?tr_scalar_mx ?sm1 ?scale_scalar_mx -?raddfD /=.
- have Q : forall a : F, 2%:R * a + 2%:R * a = 4%:R * a by frn. by have := Q 1; rewrite !mulr1.
- congr (_%:M). have Q : forall a : F, 10%:R * a + 10%:R * a = 20%:R * a by frn. by have := Q 1; rewrite !mulr1.
- have Q : forall m : F, m * 1 + m * -1 = 0 by frn. rewrite Q. exact: raddf0.
- congr (_%:M). have Q : forall m : F, 2%:R * (m * 1 * (m * 1)) + 2%:R * (m * -1 * (m * -1)) = 4%:R * m * m by frn. exact: Q.
- congr (_%:M). have Q : forall m : F, 4%:R * 1 * (m * 1) + 4%:R * -1 * (m * -1) = 8%:R * m by frn. exact: Q.
- congr (_%:M). have Q : forall l m : F, l + l + (m * 1 * (m * 1) + m * -1 * (m * -1)) = 2%:R * (l + m * m) by frn. exact: Q.
Qed.
Lemma inv_ok1 (a : F) : is_log ln -> 0 < a -> exists r, invert_pdmat ln (a%:M : 'M[F]_1) false = ok r /\ p_inv r = a^-1%:M.
Proof.
move=> LN A. have D := posdef1 A. have [r [E [_ [_ [IV _]]]]] := (C73_invert_pdmat LN false D.1).2 D. exists r. split=> //.
by rewrite -[p_inv r](mulmxK (posdef_unit D)) IV mul1mx inv1.
Qed.
Definition iB1 (b w : F) : F := (b + 2%:R * w)^-1 + m1 b w * m1 b w.
Definition iW1 (b w : F) : F := 5%:R - 4%:R * m1 b w + m1 b w * m1 b w.
Lemma mstep1 b w l : is_log ln -> 0 < b -> 0 < w -> MstepML ln (Config true true true true) (p1 b w) (s1 b w l) = ok (p1 (iB1 b w)^-1 (iW1 b w)^-1) /\
  0 < iB1 b w /\ 0 < iW1 b w.
Proof.
move=> LN B0 W0. have L0 : 0 < b + 2%:R * w by rewrite addr_gt0 // mulr_gt0 // ltr0n.
have A1 : 0 < iB1 b w by rewrite /iB1 ltr_paddr ?invr_gt0 // -expr2 sqr_ge0.
have A2 : 0 < iW1 b w.
  rewrite /iW1. have Q : forall m : F, 5%:R - 4%:R * m + m * m = (m - 2%:R) * (m - 2%:R) + 1 by frn. rewrite Q -expr2 ltr_paddl ?sqr_ge0 // ltr01. by [].
split=> //. rewrite /MstepML /= scaler0 trmx0 mul0mx subr0 scale_scalar_mx.
have -> : 2%:R^-1 * (2%:R * ((b + 2%:R * w)^-1 + m1 b w * m1 b w)) = iB1 b w by rewrite mulrA mulVf ?two_neq0 // mul1r.
have [rb [-> RB]] := inv_ok1 LN A1. rewrite /= tr_scalar_mx -!raddfB -raddfD /= scale_scalar_mx.
have -> : 4%:R^-1 * (20%:R - 8%:R * m1 b w - 8%:R * m1 b w + 4%:R * m1 b w * m1 b w) = iW1 b w.
  have N4 : (4%:R : F) != 0 by rewrite pnatr_eq0. apply: (mulfI N4). rewrite mulVKf //. rewrite /iW1.
  have Q : forall m : F, 20%:R - 8%:R * m - 8%:R * m + 4%:R * m * m = 4%:R * (5%:R - 4%:R * m + m * m) by frn. exact: Q.
have [rw [-> RW]] := inv_ok1 LN A2. by rewrite /= RB RW.
Qed.
Lemma elbo1 bb b w s : is_log ln -> 0 < b -> 0 < w -> Estep ln c (p1 b w) D2 bb = ok s -> elbo ln c (p1 b w) s = ok (\sum_k ev (p1 b w) (cls2 k)).
Proof.
move=> LN B0 W0 E. have [s' [e [E1 [E2 E3]]]] := C75_elbo c LN bb (p1_ok B0 W0) stats2 nonneg2. rewrite E in E1. case: E1 => ->. rewrite E2. congr (ok _).
apply: eq_bigr => k _. apply: (evidence_unique (E3 k)). apply: evidence_ok; [exact: p1_ok|exact: nonneg2].
Qed.
(** with the default configuration (mean, B and W updated) the ELBO of the second epoch can be smaller than the ELBO of the first *)
Theorem C75_em_W_refuted : log_ok ln -> exists (p : plda F 1) (D : stats F 2 1) cls p' v0 v1, model_ok p /\ stats_of cls D /\ (forall k, nonneg (cls k)) /\
  forall N_is_int, fit_loop ln c (Config true true true true) true D N_is_int 2 p = ok (p', [:: v0; v1]) /\ v1 < v0.
Proof.
move=> LO. have LN := LO.1. have H3 : (0 : F) < 3%:R^-1 by rewrite invr_gt0 ltr0n. have H2 : (0 : F) < 2%:R^-1 by rewrite invr_gt0 ltr0n.
have H4 : (0 : F) < 4%:R / 5%:R by rewrite divr_gt0 ?ltr0n.
have N : forall n, (n.+1%:R : F) != 0 by move=> n; rewrite pnatr_eq0.
have M1 : m1 3%:R^-1 2%:R^-1 = 3%:R / 2%:R by apply: num_eq; rewrite /m1; ffn.
have B1 : (iB1 3%:R^-1 2%:R^-1)^-1 = 3%:R^-1 :> F by rewrite /iB1 M1; apply: num_eq; ffn.
have W1 : (iW1 3%:R^-1 2%:R^-1)^-1 = 4%:R / 5%:R :> F by rewrite /iW1 M1; apply: num_eq; ffn.
set q := p1 (iB1 (3%:R^-1 : F) (4%:R / 5%:R))^-1 (iW1 (3%:R^-1 : F) (4%:R / 5%:R))^-1.
exists (p1 3%:R^-1 2%:R^-1), D2, cls2, q, (\sum_k ev (p1 3%:R^-1 2%:R^-1) (cls2 k)), (\sum_k ev (p1 3%:R^-1 (4%:R/5%:R)) (cls2 k)).
split; first exact: p1_ok. split; first exact: stats2. split; first exact: nonneg2. move=> bb. split.
  rewrite /=. have [l E] := estep1 bb LN H3 H2. rewrite E /= (elbo1 LN H3 H2 E) /=. have [-> _] := mstep1 l LN H3 H2. rewrite B1 W1 /=.
  have [l' E'] := estep1 bb LN H3 H4. rewrite E' /= (elbo1 LN H3 H4 E') /=. by have [-> _] := mstep1 l' LN H3 H4.
suff K : forall k, ev (p1 3%:R^-1 (4%:R / 5%:R)) (cls2 k) < ev (p1 3%:R^-1 2%:R^-1) (cls2 k).
  rewrite !big_ord_recl !big_ord0 !addr0. apply: ltr_add; exact: K.
move=> k. rewrite !ev1 ltr_pmul2l //.
have E1 : 3%:R^-1 + 2%:R * (4%:R / 5%:R) = 29%:R / 15%:R :> F by apply: num_eq; ffn.
have E2 : 3%:R^-1 + 2%:R * 2%:R^-1 = 4%:R / 3%:R :> F by apply: num_eq; ffn.
rewrite E1 E2.
have G : forall n m, 0 < n.+1%:R / m.+1%:R :> F by move=> n m; rewrite divr_gt0 ?ltr0n.
set a : F := (4%:R * 4%:R * 4%:R * 3%:R) / (29%:R * 5%:R).
have A0 : 0 < a by rewrite /a divr_gt0 ?mulr_gt0 ?ltr0n.
have LG : ln a + ln (29%:R / 15%:R) + (ln 2%:R^-1 + ln 2%:R^-1) = ln (4%:R / 5%:R) + ln (4%:R / 5%:R).
  have P2 : (0 : F) < 2%:R^-1 by []. have PA : 0 < a * (29%:R / 15%:R) by rewrite mulr_gt0 // G.
  rewrite -(LN _ _ A0 (G 28%N 14%N)) -(LN _ _ P2 P2) -(LN _ _ H4 H4) -(LN _ _ PA (mulr_gt0 P2 P2)). congr ln. rewrite /a. apply: num_eq.
  have Q : forall x : F, x * (4%:R * 4%:R * 4%:R * 3%:R / (29%:R * 5%:R) * (29%:R / 15%:R) * (2%:R^-1 / 2%:R)) = x * (4%:R / 5%:R * (4%:R / 5%:R)) by ffn. exact: Q.
have LA := LO.2 _ A0. have LT := LO.2 _ (G 3%N 2%N).
have Q : forall L u s t v r al : F, r + v + (s + s) = u + u -> al = a ->
  L - c + 2%:R * (s - c) - 10%:R * 2%:R^-1 - (t - c) + 16%:R * 2%:R^-1 * 2%:R^-1 / (4%:R / 3%:R) -
  (L - c + 2%:R * (u - c) - 10%:R * (4%:R / 5%:R) - (v - c) + 16%:R * (4%:R / 5%:R) * (4%:R / 5%:R) / (29%:R / 15%:R)) =
  (al - 1 - r) + (4%:R / 3%:R - 1 - t) + 4%:R / (3%:R * 29%:R).
  move=> L u s t v r al H ->. have -> : r = u + u - v - (s + s) by rewrite -H addrAC addrK addrK.
  rewrite /a. ffn.
rewrite -subr_gt0 (Q _ _ _ _ _ _ _ LG (erefl _)). apply: ltr_paddl; last by rewrite divr_gt0 ?mulr_gt0 ?ltr0n. by rewrite addr_ge0 // subr_ge0.
Qed.

(** ** Two-dimensional models *)
Lemma chol_upper n (A A' : 'M[F]_n) : (forall i j : 'I_n, (i <= j)%N -> A i j = A' i j) -> chol A = chol A'.
Proof.
elim: n A A' => [|n IH] A A' H; first by rewrite (flatmx0 A) (flatmx0 A').
rewrite /= -(H 0 0) //. case: ifP => // _.
have E : ursubmx (A : 'M_(1 + n)) = ursubmx (A' : 'M_(1 + n)) by apply/matrixP => i j; rewrite !mxE; apply: H; rewrite [i]ord1.
rewrite E. set v := _ *: ursubmx _. have -> : chol (drsubmx (A : 'M_(1 + n)) - v^T *m v) = chol (drsubmx (A' : 'M_(1 + n)) - v^T *m v).
  apply: IH => i j IJ. rewrite mxE [in RHS]mxE. congr (_ + _). rewrite !mxE. apply: H. by rewrite /= leq_add2l.
by [].
Qed.
Definition mx2 (a b e f : F) : 'M[F]_2 := \matrix_(i, j) (if i == 0 then (if j == 0 then a else b) else if j == 0 then e else f).
Definition rv2 (a b : F) : 'rV[F]_2 := \row_j (if j == 0 then a else b).
Ltac m2 := apply/matrixP => -[[|[|//]] ?] -[[|[|//]] ?]; rewrite !mxE ?big_ord_recl ?big_ord0 ?mxE /= ?addr0 //.
Lemma mx2D a b e f a' b' e' f' : mx2 a b e f + mx2 a' b' e' f' = mx2 (a + a') (b + b') (e + e') (f + f'). Proof. m2. Qed.
Lemma mx2Z k a b e f : k *: mx2 a b e f = mx2 (k * a) (k * b) (k * e) (k * f). Proof. m2. Qed.
Lemma mx2T a b e f : (mx2 a b e f)^T = mx2 a e b f. Proof. m2. Qed.
Lemma mx2M a b e f a' b' e' f' : mx2 a b e f *m mx2 a' b' e' f' = mx2 (a * a' + b * e') (a * b' + b * f') (e * a' + f * e') (e * b' + f * f'). Proof. m2. Qed.
Lemma mx2_1 : 1%:M = mx2 1 0 0 1. Proof. m2. Qed.
Lemma rvM a b a' b' e' f' : rv2 a b *m mx2 a' b' e' f' = rv2 (a * a' + b * e') (a * b' + b * f').
Proof. apply/rowP => j; rewrite !mxE ?big_ord_recl ?big_ord0 ?mxE /=; case: j => [[|[|//]] ?]; by rewrite /= ?addr0. Qed.
Lemma rvD a b a' b' : rv2 a b + rv2 a' b' = rv2 (a + a') (b + b').
Proof. apply/rowP => j; rewrite !mxE /=; case: j => [[|[|//]] ?]; by []. Qed.
Lemma rvZ k a b : k *: rv2 a b = rv2 (k * a) (k * b).
Proof. apply/rowP => j; rewrite !mxE /=; case: j => [[|[|//]] ?]; by []. Qed.
Lemma rvO a b a' b' : (rv2 a b)^T *m rv2 a' b' = mx2 (a * a') (a * b') (b * a') (b * b').
Proof. apply/matrixP => i j; rewrite !mxE big_ord1 !mxE. case: i => [[|[|//]] ?]; case: j => [[|[|//]] ?]; by []. Qed.
Lemma rvE (v : 'rV[F]_2) : v = rv2 (v 0 0) (v 0 (lift ord0 ord0)).
Proof. apply/rowP => j. rewrite mxE. case: j => [[|[|//]] p] /=; congr (v _ _); exact: val_inj. Qed.
Lemma form2 a b e f x y x' y' : form (mx2 a b e f) (rv2 x y) (rv2 x' y') = (x * a + y * e) * x' + (x * b + y * f) * y'.
Proof. by rewrite /form rvM mxE !big_ord_recl big_ord0 !mxE /= addr0. Qed.
Lemma det2 a b e f : \det (mx2 a b e f) = a * f - b * e.
Proof.
rewrite (expand_det_row _ 0) !big_ord_recl big_ord0 addr0 /cofactor !det_mx11 !mxE /= expr0 expr1 mul1r mulN1r mulrN. by [].
Qed.
Lemma posdef2 a b f : 0 < a -> 0 < a * f - b * b -> posdef (mx2 a b b f).
Proof.
move=> A H. split; first exact: mx2T. move=> v. rewrite [v]rvE. set x := v 0 0. set y := v 0 _. move=> V. rewrite form2.
rewrite -(pmulr_rgt0 _ A).
have Q : forall a b f x y : F, a * ((x * a + y * b) * x + (x * b + y * f) * y) = (a * x + b * y) * (a * x + b * y) + (a * f - b * b) * (y * y) by fr.
rewrite Q. have [Y|Y] := boolP (y == 0).
  rewrite (eqP Y) !mulr0 !addr0 -expr2 exprn_even_gt0 //=. apply: mulf_neq0; first by rewrite gt_eqF. apply: contra V => X. rewrite (eqP X) (eqP Y).
  apply/eqP/rowP => j. rewrite !mxE. by case: ifP.
apply: ltr_paddl; first by rewrite -expr2 sqr_ge0. by rewrite mulr_gt0 // -expr2 exprn_even_gt0.
Qed.
Lemma inv2 (A C : 'M[F]_2) : A *m C = 1%:M -> invmx A = C.
Proof. move=> H. have [U _] := mulmx1_unit H. by rewrite -[LHS]mulmx1 -H mulKmx. Qed.
(** one class with one observation, (1, 0) *)
Definition cls1 (k : 'I_1) : seq (F * 'rV[F]_2) := [:: (1, rv2 1 0)].
Definition D1 : stats F 1 2 := Stats 1%:M (rv2 1 0) (mx2 1 0 0 0).
Lemma stats1 : stats_of cls1 D1.
Proof.
split; first by move=> k; rewrite [k]ord1 mxE eqxx /total big_seq1. split.
  move=> k. rewrite /first big_seq1 scale1r [k]ord1. apply/rowP => j. by rewrite mxE.
by rewrite big_ord1 /second big_seq1 scale1r rvO !mulr1 !mulr0.
Qed.
Lemma nonneg1 k : nonneg (cls1 k). Proof. move=> o. rewrite inE => /eqP ->. exact: ler01. Qed.
Definition q0 : plda F 2 := Plda (rv2 0 1) 1%:M 1%:M.
Definition h : F := 2%:R^-1.
Definition q1 : plda F 2 := Plda (rv2 0 1) (mx2 (3%:R * h) (- h) (- h) (3%:R * h)) 1%:M.
Lemma q0_ok : model_ok q0. Proof. have := posdef2 (b := 0) (f := 1) ltr01. rewrite -mx2_1 !mulr0 mulr1 subr0 => H. split; exact: H ltr01. Qed.

Lemma h2 : 2%:R * h = 1. Proof. exact: mulfV two_neq0. Qed.
Lemma h_pos : 0 < h. Proof. by rewrite invr_gt0 ltr0n. Qed.
Lemma q1_ok : model_ok q1.
Proof.
split; last exact: q0_ok.2. apply: posdef2; first by rewrite mulr_gt0 ?ltr0n // h_pos.
have Q : forall h : F, 3%:R * h * (3%:R * h) - - h * - h = 2%:R * (2%:R * h * (2%:R * h)) by frn. by rewrite Q h2 !mulr1 ltr0n.
Qed.
Lemma mk2 : mk q0 (cls1 0) = rv2 h h /\ invmx (Lk q0 (cls1 0)) = mx2 h 0 0 h.
Proof.
have LE : Lk q0 (cls1 0) = mx2 2%:R 0 0 2%:R by rewrite /Lk /prec /total big_seq1 /= scale1r mx2_1 mx2D !addr0.
have IE : invmx (Lk q0 (cls1 0)) = mx2 h 0 0 h by apply: inv2; rewrite LE mx2M !mulr0 !mul0r !addr0 !add0r h2 mx2_1.
split=> //. rewrite /mk -/(Lk q0 (cls1 0)) IE /gam /first big_seq1 /= scale1r !mulmx1 rvD rvM !mulr0 !addr0 !add0r !mul1r. by [].
Qed.
Definition s0 (l : F) : estats F 2 := Estats 1 1%:R (mx2 1 0 0 0) l (rv2 h h) ((rv2 h h)^T *m rv2 h h) ((rv2 1 0)^T *m rv2 h h) (mx2 h 0 0 h + (rv2 h h)^T *m rv2 h h).
Lemma estep2 bb : is_log ln -> exists l, Estep ln c q0 D1 bb = ok (s0 l).
Proof.
move=> LN. have := @estep_ok F ln c _ _ q0 D1 cls1 bb LN q0_ok stats1 nonneg1 => ->. have [M1 M2] := mk2. eexists. congr (ok _). rewrite /s0. rewrite !big_ord1 M1 M2.
f_equal; rewrite ?/total ?/first ?/second big_seq1 ?scale1r // rvO !mulr1 !mulr0. by [].
Qed.
(** the mean fixed, B updated *)
Definition cfB := Config false true false true.
Lemma mstep2 l : is_log ln -> MstepML ln cfB q0 (s0 l) = ok q1.
Proof.
move=> LN. rewrite /MstepML /= invr1 !scale1r !rvO !mx2D. set A := _ + _. 
have HP := h_pos.
have AE : forall i j : 'I_2, (i <= j)%N -> A i j = mx2 (3%:R * h * h) (h * h) (h * h) (3%:R * h * h) i j.
  have Q1 : forall k : F, 2%:R * k = 1 -> k + k * k - 0 * k - 0 * k + 0 * 0 = 3%:R * k * k /\ 0 + k * k - 0 * k - 0 * k + 0 * 1 = k * k /\ k + k * k - 1 * k - 1 * k + 1 * 1 = 3%:R * k * k.
    move=> k K. have E1 : 1 = 2%:R * k by []. have E2 : k = 2%:R * k * k by rewrite K mul1r.
    split; first by rewrite {1}E2; have Q : forall k : F, 2%:R * k * k + k * k - 0 * k - 0 * k + 0 * 0 = 3%:R * k * k by frn.
    split; first by have Q : forall k : F, 0 + k * k - 0 * k - 0 * k + 0 * 1 = k * k by frn.
    have -> : k + k * k - 1 * k - 1 * k + 1 * 1 = k * k - k + 1 by have Q : forall k : F, k + k * k - 1 * k - 1 * k + 1 * 1 = k * k - k + 1 by frn. 
    have -> : k * k - k + 1 = k * k - 2%:R * k * k + (2%:R * k) * (2%:R * k) by rewrite K mul1r mulr1.
    have Q : forall k : F, k * k - 2%:R * k * k + (2%:R * k) * (2%:R * k) = 3%:R * k * k by frn. exact: Q.
  have [Q2 [Q3 Q4]] := Q1 h h2. rewrite /A. move=> -[[|[|//]] ?] -[[|[|//]] ?] //= _; rewrite !mxE /=; by [].

have D : posdef (mx2 (3%:R * h * h) (h * h) (h * h) (3%:R * h * h)).
  apply: posdef2; first by rewrite !mulr_gt0 ?ltr0n. have Q : forall h : F, 3%:R * h * h * (3%:R * h * h) - h * h * (h * h) = 2%:R * (2%:R * h * (2%:R * h)) * (h * h) by frn.
  by rewrite Q !mulr_gt0 ?ltr0n.
have [r [E [_ [_ [IV _]]]]] := (C73_invert_pdmat LN false D.1).2 D.
rewrite /invert_pdmat /cholesky (chol_upper AE). rewrite /invert_pdmat /cholesky in E.
case: (chol _) E => [R|//] /= [RE]. rewrite -RE in IV. rewrite /= in IV. rewrite /=. congr (ok (Plda _ _ _)).
set X := LHS. have -> : X = X *m mx2 (3%:R * h * h) (h * h) (h * h) (3%:R * h * h) *m mx2 (3%:R * h) (- h) (- h) (3%:R * h).
  rewrite -mulmxA mx2M. have Q : forall h : F, (3%:R * h * h * (3%:R * h) + h * h * - h = 2%:R * h * (2%:R * h) * (2%:R * h)) /\ (3%:R * h * h * - h + h * h * (3%:R * h) = 0) /\
    (h * h * (3%:R * h) + 3%:R * h * h * - h = 0) /\ (h * h * - h + 3%:R * h * h * (3%:R * h) = 2%:R * h * (2%:R * h) * (2%:R * h)).
    by move=> k; split; last split; last split; move: k; frn.
  have [-> [-> [-> ->]]] := Q h. by rewrite h2 !mulr1 -mx2_1 mulmx1.
by rewrite IV mul1mx.
Qed.
Lemma ev_q0 : is_log ln -> ev q0 (cls1 0) = 2%:R^-1 * (- (2%:R * c) - 1 - ln 4%:R).
Proof.
move=> LN. have [_ IE] := mk2. have LE : prec q0 (total (cls1 0)) = mx2 2%:R 0 0 2%:R by rewrite /prec /total big_seq1 /= scale1r mx2_1 mx2D !addr0.
rewrite /FrpldaProps.ev IE LE /gam /first /total !big_seq1 /= scale1r !mulmx1 rvD mx2_1 !form2 !det2.
have -> : 1 * 1 - 0 * 0 = 1 :> F by rewrite mulr1 mulr0 subr0. rewrite (ln_1 LN).
have -> : 2%:R * 2%:R - 0 * 0 = 4%:R :> F by rewrite mulr0 subr0 -natrM.
have Q : forall l c k : F, 0 - 2%:R * c - ((0 * 1 + 1 * 0) * 0 + (0 * 0 + 1 * 1) * 1) + 1 * (0 - 2%:R * c) - 1 * ((1 * 1 + 0 * 0) * 1 + (1 * 0 + 0 * 1) * 0) - (l - 2%:R * c) +
  (((1 + 0) * k + (0 + 1) * 0) * (1 + 0) + ((1 + 0) * 0 + (0 + 1) * k) * (0 + 1)) = 2%:R * k - (2%:R * c) - 2%:R - l by frn.
rewrite Q h2. have Q2 : forall a l : F, 1 - a - 2%:R - l = - a - 1 - l by frn. by rewrite Q2.
Qed.
Lemma ev_q1 : is_log ln -> ev q1 (cls1 0) = 2%:R^-1 * (- (2%:R * c) - 4%:R / 3%:R - ln 3%:R).
Proof.
move=> LN. set g : F := 12%:R^-1.
have LE : prec q1 (total (cls1 0)) = mx2 (3%:R * h + 1) (- h) (- h) (3%:R * h + 1) by rewrite /prec /total big_seq1 /= scale1r mx2_1 mx2D !addr0.
have IE : invmx (prec q1 (total (cls1 0))) = mx2 (5%:R * g) g g (5%:R * g).
  apply: inv2. rewrite LE mx2M mx2_1 /g /h.
  have Q : forall a : F, a * ((3%:R * 2%:R^-1 + 1) * (5%:R * 12%:R^-1) + - 2%:R^-1 * 12%:R^-1) = a /\ a * ((3%:R * 2%:R^-1 + 1) * 12%:R^-1 + - 2%:R^-1 * (5%:R * 12%:R^-1)) = 0 /\
    a * (- 2%:R^-1 * (5%:R * 12%:R^-1) + (3%:R * 2%:R^-1 + 1) * 12%:R^-1) = 0 /\ a * (- 2%:R^-1 * 12%:R^-1 + (3%:R * 2%:R^-1 + 1) * (5%:R * 12%:R^-1)) = a.
    by move=> a; split; last split; last split; move: a; ffn.
  have := Q 1. rewrite !mul1r => -[-> [-> [-> ->]]]. by [].
rewrite /FrpldaProps.ev IE LE /gam /first /total !big_seq1 /= scale1r !mulmx1 rvM rvD mx2_1 !form2 !det2.
have -> : 1 * 1 - 0 * 0 = 1 :> F by rewrite mulr1 mulr0 subr0. rewrite (ln_1 LN).
have -> : 3%:R * h * (3%:R * h) - - h * - h = 2%:R :> F.
  have Q : forall h : F, 3%:R * h * (3%:R * h) - - h * - h = 2%:R * (2%:R * h * (2%:R * h)) by frn. by rewrite Q h2 !mulr1.
have -> : (3%:R * h + 1) * (3%:R * h + 1) - - h * - h = 2%:R * 3%:R :> F.
  apply: num_eq. rewrite /h. have Q : forall a : F, a * ((3%:R * 2%:R^-1 + 1) * (3%:R * 2%:R^-1 + 1) - - 2%:R^-1 * - 2%:R^-1) = a * (2%:R * 3%:R) by ffn. exact: Q.
rewrite (LN 2%:R 3%:R) ?ltr0n //. congr (_ * _). rewrite /g /h. set l2 := ln 2%:R. set l3 := ln 3%:R. clearbody l2 l3.
have Q : forall l2 l3 c : F, l2 - 2%:R * c - ((0 * (3%:R / 2%:R) + 1 * - 2%:R^-1) * 0 + (0 * - 2%:R^-1 + 1 * (3%:R / 2%:R)) * 1) + 1 * (0 - 2%:R * c) - 1 * ((1 * 1 + 0 * 0) * 1 + (1 * 0 + 0 * 1) * 0) -
  (l2 + l3 - 2%:R * c) + (((1 + (0 * (3%:R / 2%:R) + 1 * - 2%:R^-1)) * (5%:R / 12%:R) + (0 + (0 * - 2%:R^-1 + 1 * (3%:R / 2%:R))) / 12%:R) * (1 + (0 * (3%:R / 2%:R) + 1 * - 2%:R^-1)) +
   ((1 + (0 * (3%:R / 2%:R) + 1 * - 2%:R^-1)) / 12%:R + (0 + (0 * - 2%:R^-1 + 1 * (3%:R / 2%:R))) * (5%:R / 12%:R)) * (0 + (0 * - 2%:R^-1 + 1 * (3%:R / 2%:R)))) = - (2%:R * c) - 4%:R / 3%:R - l3 by ffn.
exact: Q.
Qed.
Lemma elbo2 bb p s : is_log ln -> model_ok p -> Estep ln c p D1 bb = ok s -> elbo ln c p s = ok (ev p (cls1 0)).
Proof.
move=> LN MO E. have [s' [e [E1 [E2 E3]]]] := C75_elbo c LN bb MO stats1 nonneg1. rewrite E in E1. case: E1 => ->. rewrite E2. congr (ok _).
rewrite big_ord1. apply: (evidence_unique (E3 0)). apply: evidence_ok => //. exact: nonneg1.
Qed.
(** with the mean kept fixed and B updated the ELBO after the M step can be smaller than before *)
Theorem C75_em_fixed_mu_refuted : log_ok ln -> exists (p : plda F 2) (D : stats F 1 2) cls, model_ok p /\ stats_of cls D /\ (forall k, nonneg (cls k)) /\
  forall N_is_int, exists s p' s' v v', Estep ln c p D N_is_int = ok s /\ elbo ln c p s = ok v /\ MstepML ln (Config false true false true) p s = ok p' /\
    model_ok p' /\ Estep ln c p' D N_is_int = ok s' /\ elbo ln c p' s' = ok v' /\ v' < v.
Proof.
move=> LO. have LN := LO.1. exists q0, D1, cls1. split; first exact: q0_ok. split; first exact: stats1. split; first exact: nonneg1. move=> bb.
have [l E] := estep2 bb LN. have [s' [_ [E1 _]]] := C75_elbo c LN bb q1_ok stats1 nonneg1.
exists (s0 l), q1, s', (ev q0 (cls1 0)), (ev q1 (cls1 0)). split=> //. split; first exact: (elbo2 LN q0_ok E). split; first exact: mstep2. split; first exact: q1_ok.
split=> //. split; first exact: (elbo2 LN q1_ok E1). rewrite ev_q0 // ev_q1 // ltr_pmul2l ?invr_gt0 ?ltr0n //.
have G : forall n m, 0 < n.+1%:R / m.+1%:R :> F by move=> n m; rewrite divr_gt0 ?ltr0n.
have L1 := LO.2 _ (G 7%N 6%N). have L2 := LO.2 _ (G 6%N 5%N).
have LG : ln (8%:R / 7%:R) + ln (7%:R / 6%:R) + ln 3%:R = ln 4%:R.
  rewrite -(LN _ _ (G 7%N 6%N) (G 6%N 5%N)) -LN ?mulr_gt0 ?G ?invr_gt0 ?ltr0n //. congr ln. apply: num_eq.
  have Q : forall a : F, a * (8%:R / 7%:R * (7%:R / 6%:R) * 3%:R) = a * 4%:R by ffn. exact: Q.
have Q : forall a b l3 l4 : F, a + b + l3 = l4 -> - (2%:R * c) - 1 - l4 - (- (2%:R * c) - 4%:R / 3%:R - l3) =
  (8%:R / 7%:R - 1 - a) + (7%:R / 6%:R - 1 - b) + (2%:R * 3%:R * 7%:R)^-1.
  move=> a b l3 l4 <-. ffn.
rewrite -subr_gt0 (Q _ _ _ _ LG). apply: ltr_paddl; last by rewrite invr_gt0 !mulr_gt0 ?ltr0n. by rewrite addr_ge0 // subr_ge0.
Qed.
End P.
(** ** Concrete cases *)
From Verif Require Import RInst.
From Coq Require Reals.
(** the real logarithm meets the hypotheses on ln *)
Example real_log_ok : log_ok (Rpower.ln : R_rcfType -> R_rcfType).
Proof. split; [exact: R_is_log|exact: R_ln_le]. Qed.
(** a model, two classes and their statistics *)
Example C75_witness (F : rcfType) : model_ok (p1 (3%:R^-1 : F) 2%:R^-1) /\ stats_of (@cls2 F) (D2 F) /\ (forall k, nonneg (@cls2 F k)) /\ keeps_W (Config true true false true).
Proof. split; first by apply: p1_ok; rewrite invr_gt0 ltr0n. split; first exact: stats2. split=> //. exact: nonneg2. Qed.
(** the score of two equal observations 1, 1 under mu = 0, B = W = 1 *)
Section W.
Variable F : rcfType.
Add Ring FRing'' : (F_ring F). Add Ring FZRing'' : (F_zring F). Add Field FField'' : (F_field F). Add Field FZField'' : (F_zfield F).
Lemma ev_ones (ln : F -> F) c n : is_log ln -> FrpldaProps.ev ln c (p1 1 1) (nseq n (1, 1%:M)) = 2%:R^-1 * (- n%:R * c - n%:R - ln n.+1%:R + n%:R * n%:R / n.+1%:R).
Proof.
move=> LN. have T : FrpldaProps.total (nseq n (1 : F, 1%:M : 'rV[F]_1)) = n%:R by rewrite /FrpldaProps.total big_nseq /= iter_addr_0.
have FI : first (nseq n (1 : F, 1%:M : 'rV[F]_1)) = n%:R%:M by rewrite /first big_nseq /= scale1r iter_addr_0 -raddfMn.
have S : \sum_(o <- nseq n (1 : F, 1%:M : 'rV[F]_1)) o.1 * form (W (p1 (1 : F) 1)) o.2 o.2 = n%:R by rewrite big_nseq /= form1 !mulr1 iter_addr_0.
have PR : prec (p1 1 1) (n%:R : F) = (n.+1%:R)%:M by rewrite /prec /= scale_scalar_mx mulr1 -raddfD /= -[1 + _]mulrS.
rewrite /FrpldaProps.ev T FI S PR inv1 /gam /= mul0mx addr0 sm1 mulr1 form1 form0l !det_scalar1 (ln_1 LN). congr (_ * _).
have Q : forall n l i c : F, 0 - 1 * c - 0 + n * (0 - 1 * c) - n - (l - 1 * c) + n * i * n = - n * c - n - l + n * n * i by fr. exact: Q.
Qed.
Example C74_witness (ln : F -> F) : is_log ln -> exists s, llr_1vs1 ln (p1 1 1) (1%:M : 'M[F]_1) (1%:M : 'M[F]_1) = ok s /\
  s 0 0 = 2%:R^-1 * (2%:R * ln 2%:R - ln 3%:R + 3%:R^-1).
Proof.
move=> LN. have MO : model_ok (p1 (1 : F) 1) by apply: p1_ok; exact: ltr01.
have [s [E H]] := C74_1vs1 0 LN (1%:M : 'M[F]_1) (1%:M : 'M[F]_1) MO. exists s. split=> //.
have R1 : row 0 (1%:M : 'M[F]_1) = 1%:M by apply/rowP => j; rewrite !mxE [j]ord1.
have NN : forall n, nonneg (nseq n (1 : F, 1%:M : 'rV[F]_1)) by move=> n o; rewrite mem_nseq => /andP [_ /eqP ->]; exact: ler01.
have [e12 [e1 [e2 [H12 [H1 [H2 ->]]]]]] := H 0 0. rewrite R1 in H12 H1 H2.
rewrite (evidence_unique H12 (evidence_ok ln 0 MO (NN 2%N))) (evidence_unique H1 (evidence_ok ln 0 MO (NN 1%N))) (evidence_unique H2 (evidence_ok ln 0 MO (NN 1%N))) !ev_ones //.
have Q : forall l2 l3 : F, 2%:R^-1 * (- 2%:R * 0 - 2%:R - l3 + 2%:R * 2%:R / 3%:R) - 2%:R^-1 * (- 1 * 0 - 1 - l2 + 1 * 1 / 2%:R) - 2%:R^-1 * (- 1 * 0 - 1 - l2 + 1 * 1 / 2%:R) =
  2%:R^-1 * (2%:R * l2 - l3 + 3%:R^-1) by ffn.
exact: Q.
Qed.
End W.
Print Assumptions C75_em_W_refuted. Print Assumptions C75_em_fixed_mu_refuted. Print Assumptions real_log_ok.
