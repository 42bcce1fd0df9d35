(** Initialisation, sampling and averaging of full-rank PLDA models (C78: frplda.py:53-78, 367-409). *)
From Verif Require Import RingF LinAlg LinTrans LinTransProps LinAlgProps GaussLa Frplda FrpldaProps FrpldaEm FrpldaCex Splda SpldaProps SpldaEm PldaProps.
Set Warnings "-notation-overridden,-ambiguous-paths".
From mathcomp Require Import all_ssreflect all_algebra.
Set Implicit Arguments. Unset Strict Implicit. Unset Printing Implicit Defensive.
Import Order.TTheory GRing.Theory Num.Theory.
Local Open Scope ring_scope.

Section P.
Variable F : rcfType.
Add Ring FRing' : (F_ring F). Add Ring FZRing' : (F_zring F). Add Field FField' : (F_field F). Add Field FZField' : (F_zfield F).
Variable ln : F -> F.
Variable c : F.
Notation lg := (log_gauss ln c).
Notation total := FrpldaProps.total.
(** ** Specification *)
(** the mean of the class averages, their covariance, and the covariance of the observations around the average of their class *)
Definition mean_avg {M d} (cls : 'I_M -> seq (F * 'rV[F]_d)) : 'rV[F]_d := M%:R^-1 *: \sum_k average (cls k).
Definition cov_avg {M d} (cls : 'I_M -> seq (F * 'rV[F]_d)) : 'M[F]_d :=
  M%:R^-1 *: \sum_k (average (cls k) - mean_avg cls)^T *m (average (cls k) - mean_avg cls).
Definition cov_within {M d} (cls : 'I_M -> seq (F * 'rV[F]_d)) : 'M[F]_d :=
  (\sum_k total (cls k))^-1 *: \sum_k \sum_(o <- cls k) o.1 *: ((o.2 - average (cls k))^T *m (o.2 - average (cls k))).
(** ** Proofs *)
Lemma sq_tr d (v : 'rV[F]_d) : (v^T *m v)^T = v^T *m v. Proof. by rewrite trmx_mul trmxK. Qed.
Lemma within_class d (xs : seq (F * 'rV[F]_d)) y : \sum_(o <- xs) o.1 *: ((o.2 - y)^T *m (o.2 - y)) =
  second xs - (first xs)^T *m y - ((first xs)^T *m y)^T + total xs *: (y^T *m y).
Proof.
rewrite /second /first /total. elim: xs => [|o xs IH]; first by rewrite !big_nil trmx0 mul0mx trmx0 scale0r !subr0 addr0.
rewrite !big_cons IH. set s2 := \sum_(j <- xs) j.1 *: (j.2^T *m _). set s1 := \sum_(j <- xs) j.1 *: j.2. set s0 := \sum_(j <- xs) j.1.
rewrite [(o.1 *: o.2 + s1)^T]linearD /= [(o.1 *: o.2)^T]linearZ /= mulmxDl -scalemxAl. rewrite [(o.1 *: _ + s1^T *m y)^T]linearD /= [(o.1 *: (_ *m y))^T]linearZ /= [(o.2^T *m y)^T]trmx_mul trmxK.
rewrite [(o.2 - y)^T]linearB /= mulmxBl !mulmxBr. clearbody s1 s2 s0. apply/matrixP => i j. rewrite !mxE.
set a := \sum_k _; set b := \sum_k _; set a' := \sum_k _; set b' := \sum_k _; set a2 := \sum_k _; set b2 := \sum_k _.
clearbody a b a' b' a2 b2. move: (o.1) => o1. have Q : forall o1 a b a' b' s a2 b2 s0 : F, o1 * (a - b - (a' - b')) + (s - a2 - b2 + s0 * b') = o1 * a + s - (o1 * b + a2) - (o1 * a' + b2) + (o1 + s0) * b' by fr. exact: Q.
Qed.
Lemma mean_sq M d (y : 'I_M -> 'rV[F]_d) : (0 < M)%N ->
  M%:R^-1 *: (\sum_k (y k - M%:R^-1 *: \sum_l y l)^T *m (y k - M%:R^-1 *: \sum_l y l)) =
  M%:R^-1 *: (\sum_k (y k)^T *m y k) - (M%:R^-1 *: \sum_l y l)^T *m (M%:R^-1 *: \sum_l y l).
Proof.
move=> M0. have N0 : (M%:R : F) != 0 by rewrite pnatr_eq0 -lt0n. set m := M%:R^-1 *: \sum_l y l.
have SM : \sum_l y l = M%:R *: m by rewrite /m scalerA mulfV // scale1r.
clearbody m.
have E : \sum_k (y k - m)^T *m (y k - m) = \sum_k (y k)^T *m y k - M%:R *: (m^T *m m).
  have -> : \sum_k (y k - m)^T *m (y k - m) = \sum_k ((y k)^T *m y k - (y k)^T *m m - m^T *m y k + m^T *m m).
    apply: eq_bigr => k _. by rewrite [(y k - m)^T]linearB /= mulmxBl !mulmxBr opprB addrA addrAC.
  rewrite !big_split /= !sumrN -mulmx_suml -mulmx_sumr -trmx_sum SM [(M%:R *: m)^T]linearZ /= -scalemxAl -scalemxAr sumr_const card_ord -scaler_nat.
  by rewrite subrK.
by rewrite E scalerBr scalerA mulVf // scale1r.
Qed.
Lemma sym_half d (A : 'M[F]_d) : A^T = A -> Frplda.half F *: (A + A^T) = A.
Proof. move=> ->. by rewrite -mulr2n -scaler_nat scalerA /Frplda.half mulVf ?scale1r // pnatr_eq0. Qed.
Lemma init_form M d (cls : 'I_M -> seq (F * 'rV[F]_d)) (D : stats F M d) : (0 < M)%N -> stats_of cls D ->
  initialize ln D = (let! b := invert_pdmat ln (cov_avg cls) false in let! w := invert_pdmat ln (cov_within cls) false in
    ok (Plda (mean_avg cls) (p_inv b) (p_inv w))).
Proof.
move=> M0 [SN [SF SS]]. rewrite /initialize. set y := \matrix_(i, j) _. have YR : forall k, row k y = average (cls k).
  move=> k. apply/rowP => j. rewrite /average -SF -SN !mxE mulrC. by [].
have MM : (M%:R^-1 *: \sum_i row i y) = mean_avg cls by rewrite /mean_avg; congr (_ *: _); apply: eq_bigr => k _; rewrite YR.
rewrite MM. have EB : M%:R^-1 *: (y^T *m y) - (mean_avg cls)^T *m mean_avg cls = cov_avg cls.
  rewrite /cov_avg /mean_avg (mean_sq (fun k => average (cls k)) M0) [y^T *m y]mul_rows. congr (_ *: _ - _). by apply: eq_bigr => k _; rewrite YR.
rewrite EB. set C := sS D - _ - _ + _. have EC : C = \sum_k \sum_(o <- cls k) o.1 *: ((o.2 - average (cls k))^T *m (o.2 - average (cls k))).
  rewrite /C SS [_^T *m y]mul_rows trmx_sum -!sumrN -!big_split /=. apply: eq_bigr => k _. by rewrite within_class SF SN YR.
have SC : C^T = C.
  rewrite EC trmx_sum. apply: eq_bigr => k _. rewrite trmx_sum. apply: eq_bigr => o _. by rewrite linearZ /= sq_tr.
rewrite sym_half // EC. have -> : \sum_i sN D 0 i = \sum_k total (cls k) by apply: eq_bigr => k _; rewrite SN. by [].
Qed.
Lemma cov_sym M d (cls : 'I_M -> seq (F * 'rV[F]_d)) : (cov_avg cls)^T = cov_avg cls /\ (cov_within cls)^T = cov_within cls.
Proof.
split; rewrite linearZ /= trmx_sum; congr (_ *: _); apply: eq_bigr => k _; first exact: sq_tr.
rewrite trmx_sum. apply: eq_bigr => o _. by rewrite linearZ /= sq_tr.
Qed.
(** [initialize] sets the mean to the mean of the class averages and the precisions to the inverses of the covariances between and within the
    classes; it fails exactly if one of them is not positive definite *)
Theorem C78_initialize : is_log ln -> forall M d (cls : 'I_M -> seq (F * 'rV[F]_d)) (D : stats F M d), (0 < M)%N -> stats_of cls D ->
  (posdef (cov_avg cls) /\ posdef (cov_within cls) ->
    exists p, initialize ln D = ok p /\ mu p = mean_avg cls /\ B p = invmx (cov_avg cls) /\ W p = invmx (cov_within cls) /\ model_ok p) /\
  (~ (posdef (cov_avg cls) /\ posdef (cov_within cls)) -> initialize ln D = err linalg_error).
Proof.
move=> LN M d cls D M0 ST. rewrite (init_form M0 ST). have [SB SW] := cov_sym cls. have [B1 B2] := C73_invert_pdmat LN false SB. have [W1 W2] := C73_invert_pdmat LN false SW.
split.
- move=> [PB PW]. have [b [Eb _]] := B2 PB. have [w [Ew _]] := W2 PW. have [_ [_ [Ib _]]] := inv_found LN SB Eb. have [_ [_ [Iw _]]] := inv_found LN SW Ew.
  rewrite Eb Ew /= Ib Iw. eexists. split; first reflexivity. rewrite /model_ok /=. do 3!split=> //. by split; exact: posdef_inv.
- move=> H. case Eb : (invert_pdmat ln (cov_avg cls) false) => [b|e] /=.
    have [PB _] := inv_found LN SB Eb. rewrite W1 //. move=> PW. by apply: H.
  have N : ~ posdef (cov_avg cls) by move=> PB; have [b' [Eb' _]] := B2 PB; rewrite Eb' in Eb.
  by move: (B1 N); rewrite Eb => -[->].
Qed.
Lemma mix_pos d (P Q : 'M[F]_d) w : posdef P -> posdef Q -> 0 <= w -> w <= 1 -> posdef (w *: Q + (1 - w) *: P).
Proof.
move=> DP DQ W0 W1. have [E|E] := eqVneq w 0; first by rewrite E scale0r add0r subr0 scale1r.
have W : 0 < w by rewrite lt_neqAle eq_sym E. apply: posdefD; first exact: posdefZ. apply: possemiZ; last exact: posdef_semi. by rewrite subr_ge0.
Qed.
(** averaging two models averages the means and the covariances *)
Theorem C78_weighted_avg : is_log ln -> forall d (p q : plda F d) w_mu w_B w_W, model_ok p -> model_ok q -> 0 <= w_B <= 1 -> 0 <= w_W <= 1 ->
  exists r, weighted_avg_model ln p q w_mu w_B w_W = ok r /\ model_ok r /\
    mu r = w_mu *: mu q + (1 - w_mu) *: mu p /\
    invmx (B r) = w_B *: invmx (B q) + (1 - w_B) *: invmx (B p) /\
    invmx (W r) = w_W *: invmx (W q) + (1 - w_W) *: invmx (W p).
Proof.
move=> LN d p q wm wB wW [PB PW] [QB QW] HB HW. rewrite /weighted_avg_model.
have K : forall w (P Q : 'M[F]_d), posdef P -> posdef Q -> 0 <= w <= 1 -> exists R, (if 0 < w then
      let! s0 := invert_pdmat ln P false in
      let! s := invert_pdmat ln Q false in
      let! r := invert_pdmat ln (w *: p_inv s + (1 - w) *: p_inv s0) false in ok (p_inv r)
    else ok P) = ok R /\ posdef R /\ invmx R = w *: invmx Q + (1 - w) *: invmx P.
  move=> w P Q DP DQ /andP [W0 W1]. case: ifP => H; last first.
    exists P. do 2!split=> //. have -> : w = 0 by apply/eqP; rewrite eq_le W0 leNgt H. by rewrite scale0r add0r subr0 scale1r.
  have [a [Ea _]] := (C73_invert_pdmat LN false DP.1).2 DP. have [b [Eb _]] := (C73_invert_pdmat LN false DQ.1).2 DQ.
  have [_ [_ [Ia _]]] := inv_found LN DP.1 Ea. have [_ [_ [Ib _]]] := inv_found LN DQ.1 Eb. rewrite Ea Eb /= Ia Ib.
  have DM := mix_pos (posdef_inv DP) (posdef_inv DQ) W0 W1. have [r [Er _]] := (C73_invert_pdmat LN false DM.1).2 DM.
  have [_ [_ [Ir _]]] := inv_found LN DM.1 Er. rewrite Er /= Ir. eexists. split; first reflexivity. split; [exact: posdef_inv|exact: invmxK].
have [b [Eb [Db Ib]]] := K _ _ _ PB QB HB. have [w [Ew [Dw Iw]]] := K _ _ _ PW QW HW. lazy zeta beta. rewrite Eb Ew /=. eexists. split; first reflexivity.
by split.
Qed.
(** the covariances of the sample and of the model are the same *)
Lemma root_pushes d (P : 'M[F]_d) m : is_log ln -> posdef P -> exists r R, invert_pdmat ln P false = ok r /\ cholesky (p_inv r) = ok R /\ pushes ln c (fun z => m + z *m R) P m.
Proof.
move=> LN D. have [r [E _]] := (C73_invert_pdmat LN false D.1).2 D. have [_ [_ [PI _]]] := inv_found LN D.1 E.
have DI := posdef_inv D. have [R ER] := (C73_cholesky DI.1).1.1 DI. have [UP [PR G]] := (C73_cholesky DI.1).2.2 _ ER. have U : R \in unitmx by exact: upper_unit.
exists r, R. split=> //. split; first by rewrite PI. exists (- (2%:R^-1 * ln (\det (R^T *m R)))) => z.
have [_] := lg_change c m 0 z LN (posdef_1 F d) U. rewrite mul0mx addr0.
have -> : invmx R *m 1%:M *m (invmx R)^T = P.
  rewrite mulmx1 -[P]invmxK -G -[LHS](mulKmx (_ : R^T *m R \in unitmx)) ?unitmx_mul ?unitmx_tr ?U // trmx_inv.
  rewrite [_ *m (invmx R *m _)]mulmxA -[R^T *m R *m invmx R]mulmxA mulmxV // mulmx1 mulmxV ?unitmx_tr // mulmx1. by [].
move=> ->. by rewrite addrC.
Qed.
(** [sample]: the class variables are Gaussian with mean mu and precision B, and given the class variable y the vectors of the class are Gaussian
    with mean y and precision W *)
Theorem C78_sample : is_log ln -> forall d (p : plda F d), model_ok p ->
  exists (g : 'rV[F]_d -> 'rV[F]_d) (h : 'rV[F]_d -> 'rV[F]_d -> 'rV[F]_d), pushes ln c g (B p) (mu p) /\ (forall y, pushes ln c (h y) (W p) y) /\
  forall C K (z : 'I_C -> 'I_K -> 'rV[F]_d) y, exists r, sample ln p z y = ok r /\ forall i j, r i j = h (g (y i)) (z i j).
Proof.
move=> LN d p [PB PW]. have [b [RB [EB [ERB HB]]]] := root_pushes (mu p) LN PB. have [w [RW [EW [ERW _]]]] := root_pushes 0 LN PW.
exists (fun y => mu p + y *m RB), (fun y z => y + z *m RW). split=> //. split.
  move=> y. have [w' [RW' [EW' [ERW' HW]]]] := root_pushes y LN PW. move: EW' ERW'. rewrite EW => -[<-]. rewrite ERW => -[->]. exact: HW.
move=> C K z y. rewrite /sample EB /= ERB /= EW /= ERW /=. eexists. split; first reflexivity. move=> i j /=. by rewrite [_ + mu p]addrC.
Qed.
(** the hypotheses are met: the classes {3, 1}, {-3, -1} and the statistics of FrpldaCex *)
Example C78_witness : stats_of (cls2 F) (D2 F) /\ posdef (cov_avg (cls2 F)) /\ posdef (cov_within (cls2 F)).
Proof.
have A : forall k : 'I_2, average (cls2 F k) = (2%:R * sgn F k)%:M.
  move=> k. rewrite /average total2 first2 scale_scalar_mx. congr (_%:M). have Q : forall s : F, 2%:R^-1 * (4%:R * s) = 2%:R * s by ffn. exact: Q.
have MA : mean_avg (cls2 F) = 0.
  rewrite /mean_avg !big_ord_recl big_ord0 !A addr0 -raddfD /=. have -> : 2%:R * sgn F ord0 + 2%:R * sgn F (lift ord0 ord0) = 0 by rewrite /sgn /= mulr1 mulrN1 subrr.
  by rewrite raddf0 scaler0.
split; first exact: stats2. split.
- rewrite /cov_avg MA. have -> : \sum_k (average (cls2 F k) - 0)^T *m (average (cls2 F k) - 0) = (8%:R : F)%:M.
    rewrite !big_ord_recl big_ord0 !A !subr0 addr0 !tr_scalar_mx -!scalar_mxM -raddfD /= /sgn /=. congr (_%:M). frn.
  rewrite scale_scalar_mx. apply: posdef1. by rewrite mulr_gt0 ?invr_gt0 ?ltr0n.
- rewrite /cov_within. have -> : \sum_k FrpldaProps.total (cls2 F k) = 4%:R by rewrite !big_ord_recl big_ord0 !total2 addr0 -natrD.
  have -> : \sum_k \sum_(o <- cls2 F k) o.1 *: ((o.2 - average (cls2 F k))^T *m (o.2 - average (cls2 F k))) = (4%:R : F)%:M.
    rewrite !big_ord_recl big_ord0 !big_cons !big_nil !A /= !addr0 !scale1r -!raddfB /= !tr_scalar_mx -!scalar_mxM -!raddfD /= /sgn /=. congr (_%:M). frn.
  rewrite scale_scalar_mx. apply: posdef1. by rewrite mulr_gt0 ?invr_gt0 ?ltr0n.
Qed.
End P.
Print Assumptions C78_initialize. Print Assumptions C78_weighted_avg. Print Assumptions C78_sample.
