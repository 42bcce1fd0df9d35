(** Statistics and scores of the full-rank PLDA (C74). *)
From Verif Require Import RingF LinAlg LinTrans LinAlgProps GaussLa Frplda.
Set Warnings "-notation-overridden,-ambiguous-paths".
From mathcomp Require Import all_ssreflect all_algebra.
Set Implicit Arguments. Unset Strict Implicit. Unset Printing Implicit Defensive.
Import Order.TTheory GRing.Theory Num.Theory.
Local Open Scope ring_scope.

Section P.
Variable F : rcfType.
Add Ring FRing' : (F_ring F). Add Ring FZRing' : (F_zring F). Add Field FField' : (F_field F). Add Field FZField' : (F_zfield F).
Variable ln : F -> F.
Variable c : F.
Notation lg := (log_gauss ln c).
(** ** Specification *)
(** The generative model: the class variable y is Gaussian with mean mu and precision B, an observation x of the class is Gaussian with
    mean y and precision W. A class is given as a list of weighted observations. [joint] is the logarithm of the joint density of y and the
    observations (each raised to its weight). *)
Definition joint {d} (p : plda F d) (xs : seq (F * 'rV[F]_d)) (y : 'rV[F]_d) : F :=
  lg (B p) (mu p) y + \sum_(o <- xs) o.1 * lg (W p) y o.2.
(** Bayes: the joint density is the evidence exp e times a Gaussian density of y, the posterior, with precision P and mean m *)
Definition posterior {d} (p : plda F d) (xs : seq (F * 'rV[F]_d)) (e : F) (P : 'M[F]_d) (m : 'rV[F]_d) : Prop :=
  posdef P /\ forall y, joint p xs y = e + lg P m y.
(** e is the log evidence: the logarithm of the integral over y of the joint density *)
Definition evidence {d} (p : plda F d) (xs : seq (F * 'rV[F]_d)) (e : F) : Prop := exists P m, posterior p xs e P m.
(** the log likelihood ratio of "same class" against "different classes" *)
Definition is_llr {d} (p : plda F d) (xs1 xs2 : seq (F * 'rV[F]_d)) (s : F) : Prop :=
  exists e12 e1 e2, evidence p (xs1 ++ xs2) e12 /\ evidence p xs1 e1 /\ evidence p xs2 e2 /\ s = e12 - e1 - e2.
Definition model_ok {d} (p : plda F d) : Prop := posdef (B p) /\ posdef (W p).
Definition nonneg {d} (xs : seq (F * 'rV[F]_d)) : Prop := forall o, o \in xs -> 0 <= o.1.
(** the statistics N, F, S of a family of classes *)
Definition total {d} (xs : seq (F * 'rV[F]_d)) : F := \sum_(o <- xs) o.1.
Definition first {d} (xs : seq (F * 'rV[F]_d)) : 'rV[F]_d := \sum_(o <- xs) o.1 *: o.2.
Definition second {d} (xs : seq (F * 'rV[F]_d)) : 'M[F]_d := \sum_(o <- xs) o.1 *: (o.2^T *m o.2).
Definition stats_of {M d} (cls : 'I_M -> seq (F * 'rV[F]_d)) (D : stats F M d) : Prop :=
  (forall k, sN D 0 k = total (cls k)) /\ (forall k, row k (sF D) = first (cls k)) /\ sS D = \sum_k second (cls k).
(** the classes of soft and hard labels *)
Definition soft_class {n M d} (x : 'M[F]_(n, d)) (pt : 'M[F]_(n, M)) (k : 'I_M) : seq (F * 'rV[F]_d) := [seq (pt i k, row i x) | i <- enum 'I_n].
Definition hard_class {n d} (x : 'M[F]_(n, d)) (ids : 'I_n -> nat) (k : nat) : seq (F * 'rV[F]_d) :=
  [seq (1, row i x) | i <- enum 'I_n & ids i == k].

(** the average of a class, and a vector normalised to length sqrt d (eps avoids the division by zero in the code) *)
Definition average {d} (xs : seq (F * 'rV[F]_d)) : 'rV[F]_d := (total xs)^-1 *: first xs.
Definition normalised {d} (eps : F) (v : 'rV[F]_d) : 'rV[F]_d := (Num.sqrt d%:R / (Num.sqrt (\sum_j v 0 j ^+ 2) + eps)) *: v.

(** ** Proofs *)
(** *** Evidence and posterior *)
Lemma evidence_unique d (p : plda F d) xs e e' : evidence p xs e -> evidence p xs e' -> e = e'.
Proof.
move=> [P [m [D H]]] [P' [m' [D' H']]]. have := @gauss_unique F ln c d P P' m m' e e' D D'. case; last by move=> _ [_].
by move=> y; rewrite -H -H'.
Qed.
Lemma is_llr_unique d (p : plda F d) xs1 xs2 s s' : is_llr p xs1 xs2 s -> is_llr p xs1 xs2 s' -> s = s'.
Proof.
move=> [a [b [e [A [B' [E ->]]]]]] [a' [b' [e' [A' [B'' [E' ->]]]]]]. by rewrite (evidence_unique A A') (evidence_unique B' B'') (evidence_unique E E').
Qed.
Lemma total_nonneg d (xs : seq (F * 'rV[F]_d)) : nonneg xs -> 0 <= total xs.
Proof. move=> H. rewrite /total big_seq. apply: sumr_ge0 => o O. exact: H. Qed.
Definition prec {d} (p : plda F d) (N : F) : 'M[F]_d := B p + N *: W p.
Definition gam {d} (p : plda F d) (f : 'rV[F]_d) : 'rV[F]_d := f *m W p + mu p *m B p.
Lemma prec_ok d (p : plda F d) N : model_ok p -> 0 <= N -> posdef (prec p N).
Proof. move=> [DB DW] H. apply: posdefD => //. apply: possemiZ => //. exact: posdef_semi. Qed.
Definition ev {d} (p : plda F d) (xs : seq (F * 'rV[F]_d)) : F :=
  2%:R^-1 * (ln (\det (B p)) - d%:R * c - form (B p) (mu p) (mu p) + total xs * (ln (\det (W p)) - d%:R * c) - (\sum_(o <- xs) o.1 * form (W p) o.2 o.2)
    - (ln (\det (prec p (total xs))) - d%:R * c) + form (invmx (prec p (total xs))) (gam p (first xs)) (gam p (first xs))).
Lemma first_dot d (xs : seq (F * 'rV[F]_d)) (Wm : 'M[F]_d) y : \sum_(o <- xs) o.1 * form Wm o.2 y = dot (first xs *m Wm) y.
Proof.
rewrite /first. elim: xs => [|o s IH]; first by rewrite !big_nil mul0mx /dot mul0mx mxE.
by rewrite !big_cons IH mulmxDl dotDl -scalemxAl dotZl form_dot.
Qed.
Lemma posterior_ok d (p : plda F d) xs : model_ok p -> nonneg xs ->
  posterior p xs (ev p xs) (prec p (total xs)) (gam p (first xs) *m invmx (prec p (total xs))).
Proof.
move=> MO NN. have DL := prec_ok MO (total_nonneg NN). split=> // y. rewrite /joint /log_gauss sq_complete // /ev. case: MO => DB DW.
have -> : \sum_(o <- xs) o.1 * (2%:R^-1 * (ln (\det (W p)) - d%:R * c - form (W p) (o.2 - y) (o.2 - y))) =
  2%:R^-1 * (total xs * (ln (\det (W p)) - d%:R * c) - (\sum_(o <- xs) o.1 * form (W p) o.2 o.2) + 2%:R * (dot (first xs *m W p) y) - total xs * form (W p) y y).
  rewrite -first_dot /total !mulr_suml !mulr_sumr -!sumrB -big_split -!sumrB mulr_sumr. apply: eq_bigr => o _.
  rewrite form_sub ?DW.1 // (formC y o.2 DW.1). set k := ln _ - _.
  have R1 : forall h w k x xy yy : F, w * (h * (k - (x - 2%:R * xy + yy))) = h * (w * k - w * x + 2%:R * (w * xy) - w * yy) by fr.
  by rewrite R1.
rewrite form_sub ?DB.1 // /prec formPD formPZ /gam dotDl form_dot. 
have R1 : forall a b cc m n q t l f g h k y z : F,
  h * (a - b - (y - 2%:R * z + m)) + h * (n - q + 2%:R * g - t * k) =
  h * (a - b - m + n - q - (l - b) + f) + h * (l - b - (y + t * k - 2%:R * (g + z) + f)) by fr.
by rewrite (R1 _ _ 0 _ _ _ _ (ln (\det (B p + total xs *: W p))) (form (invmx (B p + total xs *: W p)) (first xs *m W p + mu p *m B p) (first xs *m W p + mu p *m B p))).
Qed.
Lemma evidence_ok d (p : plda F d) xs : model_ok p -> nonneg xs -> evidence p xs (ev p xs).
Proof. move=> M N. do 2 eexists. exact: posterior_ok. Qed.
(** *** Statistics *)
Lemma trmx_sum (I : Type) (r : seq I) n m (f : I -> 'M[F]_(n, m)) : (\sum_(i <- r) f i)^T = \sum_(i <- r) (f i)^T.
Proof. exact: raddf_sum. Qed.
Lemma total_map n d (w : 'I_n -> F) (x : 'M[F]_(n, d)) : total [seq (w i, row i x) | i <- enum 'I_n] = \sum_i w i.
Proof. by rewrite /total big_map big_enum. Qed.
Lemma first_map n d (w : 'I_n -> F) (x : 'M[F]_(n, d)) : first [seq (w i, row i x) | i <- enum 'I_n] = \sum_i w i *: row i x.
Proof. by rewrite /first big_map big_enum. Qed.
Lemma second_map n d (w : 'I_n -> F) (x : 'M[F]_(n, d)) : second [seq (w i, row i x) | i <- enum 'I_n] = \sum_i w i *: ((row i x)^T *m row i x).
Proof. by rewrite /second big_map big_enum. Qed.
Lemma stats_soft_of n M d (x : 'M[F]_(n, d)) (pt : 'M[F]_(n, M)) : stats_of (soft_class x pt) (compute_stats_soft x pt None None).1.
Proof.
split; [|split].
- move=> k. by rewrite total_map mxE.
- move=> k. rewrite first_map. apply/rowP => j. rewrite summxE !mxE. apply: eq_bigr => i _. by rewrite !mxE.
- rewrite /=. under eq_bigr => k _ do rewrite second_map. rewrite exchange_big /=. apply/matrixP => a b. rewrite summxE mxE. apply: eq_bigr => i _.
  rewrite -scaler_suml !mxE big_ord1 !mxE. rewrite mulrCA. by [].
Qed.
(** the statistics of soft labels: with the sample weights and the scale factor the class memberships are multiplied by them. The caller's
    array of memberships is kept, unless a scale factor is given without sample weights: then it is overwritten with the scaled one. *)
Theorem C74_stats_soft : forall n M d (x : 'M[F]_(n, d)) (pt : 'M[F]_(n, M)) (sw : option 'cV[F]_n) (sf : option F),
  let scaled := \matrix_(i, k) ((if sf is Some s then s else 1) * ((if sw is Some w then w i 0 else 1) * pt i k)) in
  stats_of (soft_class x scaled) (compute_stats_soft x pt sw sf).1 /\
  (compute_stats_soft x pt sw sf).2 = (if (sw, sf) is (None, Some s) then s *: pt else pt).
Proof.
move=> n M d x pt sw sf scaled. split; last by case: sw {scaled} => [w|] /=; case: sf => [s|].
suff -> : (compute_stats_soft x pt sw sf).1 = (compute_stats_soft x scaled None None).1 by exact: stats_soft_of.
rewrite /compute_stats_soft /=. set q := (if sf is Some s then _ else _). have -> : q = scaled; last by [].
rewrite /q /scaled. clear q scaled. by case: sf => [s|]; case: sw => [w|]; apply/matrixP => i k; rewrite !mxE ?mul1r.
Qed.
Lemma hard_soft n d (x : 'M[F]_(n, d)) (ids : 'I_n -> nat) (k : 'I_(num_classes ids)) :
  total (hard_class x ids k) = total (soft_class x (hard_theta F ids) k) /\ first (hard_class x ids k) = first (soft_class x (hard_theta F ids) k) /\
  second (hard_class x ids k) = second (soft_class x (hard_theta F ids) k).
Proof.
have E : forall (V : zmodType) (f : 'I_n -> V) (g : F * 'rV[F]_d -> V), (forall i, ids i == k -> g (1, row i x) = f i) -> (forall i, ids i != k -> f i = 0) ->
  \sum_(o <- hard_class x ids k) g o = \sum_i f i.
  move=> V f g H1 H2. rewrite /hard_class big_map big_filter big_enum_cond /= [RHS](bigID (fun i => ids i == k)) /= [X in _ = _ + X]big1 ?addr0; last by move=> i; exact: H2.
  apply: eq_bigr => i. exact: H1.
split; [|split].
- rewrite total_map. apply: E => i H /=; rewrite mxE; first by rewrite H. by rewrite (negbTE H).
- rewrite first_map. apply: E => i H /=; rewrite mxE; first by rewrite H. by rewrite (negbTE H) scale0r.
- rewrite second_map. apply: E => i H /=; rewrite mxE; first by rewrite H. by rewrite (negbTE H) scale0r.
Qed.
(** hard labels: class k consists of the rows with id k, and no row is lost *)
Theorem C74_stats_hard : forall n d (x : 'M[F]_(n, d)) (ids : 'I_n -> nat),
  (n = 0%N -> compute_stats_hard x ids None None = err value_error) /\
  ((0 < n)%N -> exists D, compute_stats_hard x ids None None = ok D /\ stats_of (fun k : 'I_(num_classes ids) => hard_class x ids k) D /\
    (forall i, (ids i < num_classes ids)%N)).
Proof.
move=> n d x ids. split; first by move=> N; move: x ids; rewrite N.
case: n x ids => [//|n] x ids _. eexists; split; first reflexivity. split; last by move=> i; rewrite /num_classes ltnS; exact: (leq_bigmax (F := ids)).
have [A [A' A'']] := stats_soft_of x (hard_theta F ids). split; [|split].
- move=> k. by rewrite A (hard_soft x k).1.
- move=> k. by rewrite A' (hard_soft x k).2.1.
- rewrite A''. apply: eq_bigr => k _. by rewrite (hard_soft x k).2.2.
Qed.
(** centering the statistics gives the statistics of the centered observations *)
Theorem C74_center : forall M d (cls : 'I_M -> seq (F * 'rV[F]_d)) D m, stats_of cls D ->
  stats_of (fun k => [seq (o.1, o.2 - m) | o <- cls k]) (center_stats D m).
Proof.
move=> M d cls D m [HN [HF HS]]. split; [|split].
- move=> k. by rewrite /= HN /total big_map.
- move=> k. have -> : row k (sF (center_stats D m)) = row k (sF D) - sN D 0 k *: m.
    apply/rowP => j. rewrite /= !mxE big_ord1 !mxE. by [].
  rewrite HF HN /first big_map /total scaler_suml -sumrB. apply: eq_bigr => o _. by rewrite scalerBr.
- have FT : (\row_j \sum_k sF D k j) = \sum_k first (cls k).
    apply/rowP => j. rewrite mxE summxE. apply: eq_bigr => k _. by rewrite -HF mxE.
  rewrite /= FT HS. have -> : \sum_k sN D 0 k = \sum_k total (cls k) by apply: eq_bigr.
  rewrite trmx_sum mulmx_suml trmx_sum scaler_suml -!sumrB -big_split /=. apply: eq_bigr => k _.
  rewrite /second /first /total big_map trmx_sum mulmx_suml trmx_sum scaler_suml -!sumrB -big_split /=. apply: eq_bigr => o _.
  rewrite [(o.2 - m)^T]linearB /= mulmxBl !mulmxBr [(o.1 *: o.2)^T]linearZ /= -scalemxAl [(o.1 *: _)^T]linearZ /= trmx_mul trmxK -!scalerBr -!scalerDr. congr (_ *: _).
  by rewrite opprB addrA addrAC.
Qed.
(** *** Scores *)
Lemma chol_right_ok d (L : 'M[F]_d) : is_log ln -> posdef L -> exists (r : (forall n, 'M[F]_(n, d) -> res 'M[F]_(n, d)) * F) (R : 'M[F]_d),
  chol_right ln L = ok r /\ r.2 = ln (\det L) /\ R \in unitmx /\ R^T *m R = L /\ forall n (x : 'M[F]_(n, d)), r.1 n x = ok (x *m invmx R).
Proof.
move=> LN D. have [R E] := (C73_cholesky D.1).1.1 D. have [U [P G]] := (C73_cholesky D.1).2.2 _ E. have UR := upper_unit U P.
rewrite /chol_right E /=. eexists; exists R. split; first reflexivity. rewrite /=. split; last split=> //; last split=> //.
  by rewrite /tri_logdet -G ln_det_gram.
move=> n x. have T : triangular false R by []. have [K _] := C73_invert_trimat LN T.
have [|KR _] := K; first by move=> i; rewrite gt_eqF. have [y [-> <-]] := KR n x. by rewrite mulmxK.
Qed.
Lemma delta_form n1 n2 (A : 'M[F]_(n1, n2)) i j : A i j = ((delta_mx 0 i : 'rV[F]_n1) *m A *m (delta_mx j 0 : 'cV[F]_n2)) 0 0.
Proof. by rewrite -rowE -colE !mxE. Qed.
Lemma gram_form d n1 n2 (R L : 'M[F]_d) (x : 'M[F]_(n1, d)) (y : 'M[F]_(n2, d)) i j : R \in unitmx -> R^T *m R = L ->
  ((x *m invmx R) *m (y *m invmx R)^T) i j = form (invmx L) (row i x) (row j y).
Proof.
move=> U <-. rewrite /form trmx_mul !mulmxA. have -> : invmx (R^T *m R) = invmx R *m (invmx R)^T.
  have UT : R^T \in unitmx by rewrite unitmx_tr. have I1 : (R^T *m R) *m (invmx R *m (invmx R)^T) = 1%:M.
    by rewrite mulmxA -[R^T *m R *m _]mulmxA mulmxV // mulmx1 trmx_inv mulmxV.
  have UG : R^T *m R \in unitmx by rewrite unitmx_mul UT U. by rewrite -[RHS](mulKmx UG) I1 mulmx1.
rewrite [LHS]delta_form [row i x]rowE [row j y]rowE trmx_mul !mulmxA trmx_delta. by [].
Qed.
Definition raw {d} (p : plda F d) (k1 k2 : F) (a b : 'rV[F]_d) : F :=
  form (invmx (prec p (k1 + k2))) (gam p (a + b)) (gam p (a + b)) - form (invmx (prec p k1)) (gam p a) (gam p a) - form (invmx (prec p k2)) (gam p b) (gam p b)
  + (ln (\det (prec p k1)) + ln (\det (prec p k2)) - ln (\det (prec p (k1 + k2)))).
Lemma row_bcast n d (x : 'M[F]_(n, d)) (Wm : 'M[F]_d) v i : row i (x *m Wm + bcast n v) = row i x *m Wm + v.
Proof. rewrite linearD /= row_mul. congr (_ + _). apply/rowP => j. by rewrite !mxE. Qed.
Lemma sqsum_gram n d (g : 'M[F]_(n, d)) i : sqsum g i = (g *m g^T) i i.
Proof. rewrite /sqsum mxE. apply: eq_bigr => j _. by rewrite mxE. Qed.
Lemma half_sum d (p : plda F d) (a b : 'rV[F]_d) : (a *m W p + (Frplda.half F) *: (mu p *m B p)) + (b *m W p + (Frplda.half F) *: (mu p *m B p)) = gam p (a + b).
Proof.
rewrite /gam mulmxDl addrACA -scalerDl. congr (_ + _). have -> : (Frplda.half F) + (Frplda.half F) = 1; last by rewrite scale1r.
rewrite /Frplda.half -mulr2n -[_ *+ 2]mulr_natr mulVf //. exact: two_neq0.
Qed.
Lemma tar_form d n1 n2 (R L Wm : 'M[F]_d) (x1 : 'M[F]_(n1, d)) (x2 : 'M[F]_(n2, d)) v i j : R \in unitmx -> R^T *m R = L -> posdef L ->
  let g1 := (x1 *m Wm + bcast n1 v) *m invmx R in let g2 := (x2 *m Wm + bcast n2 v) *m invmx R in
  2%:R * (g1 *m g2^T) i j + (sqsum g1 i + sqsum g2 j) = form (invmx L) ((row i x1 *m Wm + v) + (row j x2 *m Wm + v)) ((row i x1 *m Wm + v) + (row j x2 *m Wm + v)).
Proof.
move=> U G D. lazy zeta. rewrite !sqsum_gram !(gram_form _ _ _ _ U G) !row_bcast. set a := row i x1 *m Wm + v. set b := row j x2 *m Wm + v. clearbody a b.
rewrite !formDl !formDr (formC b a) ?(posdef_inv D).1 //. have R1 : forall x y z : F, 2%:R * x + (y + z) = y + x + (x + z) by fr. exact: R1.
Qed.
Lemma book_ij_ok M1 M2 d (p : plda F d) (F1 : 'M[F]_(M1, d)) (F2 : 'M[F]_(M2, d)) k1 k2 : is_log ln -> model_ok p -> 0 <= k1 -> 0 <= k2 ->
  exists s, book_ij ln p F1 F2 k1 k2 = ok s /\ forall i j, s i j = raw p k1 k2 (row i F1) (row j F2).
Proof.
move=> LN MO K1 K2. have D1 := prec_ok MO K1. have D2 := prec_ok MO K2. have D3 := prec_ok MO (addr_ge0 K1 K2).
have [r1 [R1 [E1 [L1 [U1 [G1 X1]]]]]] := chol_right_ok LN D1. have [r2 [R2 [E2 [L2 [U2 [G2 X2]]]]]] := chol_right_ok LN D2. have [r3 [R3 [E3 [L3 [U3 [G3 X3]]]]]] := chol_right_ok LN D3.
rewrite /book_ij -!/(prec p _) E1 E2 E3 /= !X1 !X2 !X3 /=. eexists; split; first reflexivity. move=> i j. rewrite mxE L1 L2 L3.
have := tar_form (W p) F1 F2 ((Frplda.half F) *: (mu p *m B p)) i j U3 G3 D3. lazy zeta. set g1 := _ *m invmx R3. set g2 := (F2 *m _ + _) *m invmx R3. rewrite half_sum => T.
rewrite ![sqsum (_ *m invmx R1) i]sqsum_gram ![sqsum (_ *m invmx R2) j]sqsum_gram (gram_form _ _ _ _ U1 G1) (gram_form _ _ _ _ U2 G2) !row_bcast -!/(gam p _) /raw -T.
have Q : forall a b x y z w t : F, 2%:R * a + (x - y + z - w) + t = 2%:R * a + (x + z) - y - w + t by fr. by rewrite Q.
Qed.
Lemma total_cat d (a b : seq (F * 'rV[F]_d)) : total (a ++ b) = total a + total b. Proof. by rewrite /total big_cat. Qed.
Lemma first_cat d (a b : seq (F * 'rV[F]_d)) : first (a ++ b) = first a + first b. Proof. by rewrite /first big_cat. Qed.
Lemma nonneg_cat d (a b : seq (F * 'rV[F]_d)) : nonneg a -> nonneg b -> nonneg (a ++ b).
Proof. move=> A B' o. rewrite mem_cat => /orP [/A|/B'] //. Qed.
Lemma llr_raw d (p : plda F d) xs1 xs2 : model_ok p -> nonneg xs1 -> nonneg xs2 ->
  is_llr p xs1 xs2 ((Frplda.half F) * (raw p (total xs1) (total xs2) (first xs1) (first xs2) + (- ln (\det (B p)) + (mu p *m B p *m (mu p)^T) 0 0))).
Proof.
move=> MO N1 N2. exists (ev p (xs1 ++ xs2)), (ev p xs1), (ev p xs2). split; first exact/evidence_ok/nonneg_cat. split; first exact: evidence_ok. split; first exact: evidence_ok.
rewrite /ev total_cat first_cat big_cat /= /raw -/(form (B p) (mu p) (mu p)) /Frplda.half.
set a1 := form (invmx (prec p (total xs1))) _ _. set a2 := form (invmx (prec p (total xs2))) _ _. set a3 := form (invmx (prec p (total xs1 + total xs2))) _ _.
set s1 := \sum_(o <- xs1) _. set s2 := \sum_(o <- xs2) _. set l1 := ln (\det (prec p (total xs1))). set l2 := ln (\det (prec p (total xs2))). set l3 := ln (\det (prec p (total xs1 + total xs2))).
set b := ln (\det (B p)). set m := form (B p) _ _. set k := ln (\det (W p)) - _. set t1 := total xs1. set t2 := total xs2. set e := d%:R * c.
have Q : forall h a1 a2 a3 s1 s2 l1 l2 l3 b m k t1 t2 e : F, h * (a3 - a1 - a2 + (l1 + l2 - l3) + (- b + m)) =
  h * (b - e - m + (t1 + t2) * k - (s1 + s2) - (l3 - e) + a3) - h * (b - e - m + t1 * k - s1 - (l1 - e) + a1) - h * (b - e - m + t2 * k - s2 - (l2 - e) + a2) by fr.
exact: Q.
Qed.
Lemma logdet_ok d (P : 'M[F]_d) : is_log ln -> posdef P -> logdet_pdmat ln P = ok (ln (\det P)).
Proof. move=> LN D. exact: ((C73_logdet LN D.1).1 D).2. Qed.
(** one against one: every score is the log likelihood ratio of the two vectors *)
Theorem C74_1vs1 : is_log ln -> forall n1 n2 d (p : plda F d) (x1 : 'M[F]_(n1, d)) (x2 : 'M[F]_(n2, d)), model_ok p ->
  exists s, llr_1vs1 ln p x1 x2 = ok s /\ forall i j, is_llr p [:: (1, row i x1)] [:: (1, row j x2)] (s i j).
Proof.
move=> LN n1 n2 d p x1 x2 MO. have D1 := prec_ok MO ler01. have D2 := prec_ok MO (addr_ge0 ler01 ler01 : (0 : F) <= 1 + 1).
have [r1 [R1 [E1 [L1 [U1 [G1 X1]]]]]] := chol_right_ok LN D1. have [r3 [R3 [E3 [L3 [U3 [G3 X3]]]]]] := chol_right_ok LN D2.
have P1 : prec p 1 = B p + W p by rewrite /prec scale1r. have P2 : prec p (1 + 1) = B p + 2%:R *: W p by rewrite /prec -mulr2n.
rewrite /llr_1vs1 -P1 -P2 E1 E3 /= !X1 !X3 /= (logdet_ok LN MO.1) /=. eexists; split; first reflexivity. move=> i j. rewrite mxE L1 L3.
have := tar_form (W p) x1 x2 ((Frplda.half F) *: (mu p *m B p)) i j U3 G3 D2. lazy zeta. set g1 := _ *m invmx R3. set g2 := (x2 *m _ + _) *m invmx R3. rewrite half_sum => T.
rewrite ![sqsum (_ *m invmx R1) i]sqsum_gram ![sqsum (_ *m invmx R1) j]sqsum_gram !(gram_form _ _ _ _ U1 G1) !row_bcast -!/(gam p _).
have H : forall (o : 'rV[F]_d), nonneg [:: (1, o)] by move=> o z; rewrite inE => /eqP ->; exact: ler01.
have := llr_raw MO (H (row i x1)) (H (row j x2)). rewrite /total /first !big_seq1 !scale1r /raw -T. 
have Q : forall h a x y z w l1 l3 b m : F, h * (2%:R * a + (x + z) - y - w + (l1 + l1 - l3) + (- b + m)) = h * (2%:R * a + (x - y + z - w) + (2%:R * l1 - l3 - b + m)) by fr.
by rewrite Q.
Qed.
(** the score does not depend on which side is enrolled *)
Theorem C74_symmetric : is_log ln -> forall n1 n2 d (p : plda F d) (x1 : 'M[F]_(n1, d)) (x2 : 'M[F]_(n2, d)) s s', model_ok p ->
  llr_1vs1 ln p x1 x2 = ok s -> llr_1vs1 ln p x2 x1 = ok s' -> s' = s^T.
Proof.
move=> LN n1 n2 d p x1 x2 s s' MO E E'. have [t [T H]] := C74_1vs1 LN x1 x2 MO. have [t' [T' H']] := C74_1vs1 LN x2 x1 MO.
rewrite E in T. rewrite E' in T'. case: T => <- in H. case: T' => <- in H'. apply/matrixP => i j. rewrite mxE. apply: is_llr_unique (H' i j) _.
have [a [b [e [A [B' [E0 ->]]]]]] := H j i. exists a, e, b. split; [|split; [exact: E0|split; [exact: B'|]]].
  case: A => P [m [DP HP]]. exists P, m. split=> // y. rewrite -HP /joint /= !big_cons !big_nil !addr0. congr (_ + _). by rewrite addrC.
by rewrite addrAC.
Qed.
(** *** Many against many *)
Lemma book_loop_ok M1 M2 d (p : plda F d) (D1 : stats F M1 d) (D2 : stats F M2 d) ks sc : is_log ln -> model_ok p ->
  (forall k, k \in ks -> 0 <= k.1 /\ 0 <= k.2) -> exists s, book_loop ln p D1 D2 ks sc = ok s /\
  forall i j, s i j = if (sN D1 0 i, sN D2 0 j) \in ks then raw p (sN D1 0 i) (sN D2 0 j) (row i (sF D1)) (row j (sF D2)) else sc i j.
Proof.
move=> LN MO. elim: ks sc => [|[k1 k2] ks IH] sc H; first by exists sc.
have [K1 K2] := H (k1, k2) (mem_head _ _). have [t [E T]] := book_ij_ok (sF D1) (sF D2) LN MO K1 K2. rewrite /= E /=.
have [|s [E' S]] := IH (\matrix_(i, j) (if (sN D1 0 i == k1) && (sN D2 0 j == k2) then t i j else sc i j)).
  move=> k KK. apply: H. by rewrite inE KK orbT.
exists s. split=> // i j. rewrite S inE. case: ifP => [|_]; first by rewrite orbT. rewrite orbF mxE xpair_eqE. case: ifP => // /andP [/eqP Q1 /eqP Q2]. by rewrite T Q1 Q2.
Qed.
Lemma mem_unique (s : seq F) z : (z \in np_unique s) = (z \in s).
Proof. by rewrite mem_sort mem_undup. Qed.
(** the book method: every score is the log likelihood ratio of the two classes, whatever the numbers of observations *)
Theorem C74_book : is_log ln -> forall M1 M2 d (p : plda F d) (D1 : stats F M1 d) (D2 : stats F M2 d) cls1 cls2, model_ok p ->
  stats_of cls1 D1 -> stats_of cls2 D2 -> (forall i, nonneg (cls1 i)) -> (forall j, nonneg (cls2 j)) ->
  exists s, llr_NvsM_book ln p D1 D2 = ok s /\ forall i j, is_llr p (cls1 i) (cls2 j) (s i j).
Proof.
move=> LN M1 M2 d p D1 D2 cls1 cls2 MO [N1 [F1 _]] [N2 [F2 _]] P1 P2. rewrite /llr_NvsM_book. set ks := flatten _.
have [|s [E S]] := @book_loop_ok M1 M2 d p D1 D2 ks 0 LN MO.
  move=> k /allpairsP [[a b] [/=]]. rewrite !mem_unique => /mapP [i _ ->] /mapP [j _ ->] -> /=. by rewrite N1 N2 !total_nonneg.
rewrite E /= (logdet_ok LN MO.1) /=. eexists; split; first reflexivity. move=> i j. rewrite mxE S ifT.
  rewrite N1 N2 F1 F2. exact: llr_raw.
apply/allpairsP. exists (sN D1 0 i, sN D2 0 j). rewrite !mem_unique. split=> //; apply: map_f; exact: mem_enum.
Qed.
Lemma row_average M d (D : stats F M d) cls k : stats_of cls D -> row k (averages D) = average (cls k).
Proof.
move=> [N [F1 _]]. rewrite /average -N -F1. apply/rowP => j. rewrite !mxE. by rewrite mulrC.
Qed.
Lemma row_lnorm n d eps (x : 'M[F]_(n, d)) i : row i (lnorm eps x) = normalised eps (row i x).
Proof.
apply/rowP => j. rewrite !mxE /norm2. rewrite mulrAC. by [].
Qed.
(** vector averages *)
Theorem C74_vavg : is_log ln -> forall eps M1 M2 d (p : plda F d) (D1 : stats F M1 d) (D2 : stats F M2 d) cls1 cls2, model_ok p ->
  stats_of cls1 D1 -> stats_of cls2 D2 ->
  (exists s, llr_NvsM_vavg ln eps p D1 D2 false = ok s /\ forall i j, is_llr p [:: (1, average (cls1 i))] [:: (1, average (cls2 j))] (s i j)) /\
  (exists s, llr_NvsM_vavg ln eps p D1 D2 true = ok s /\ forall i j, is_llr p [:: (1, normalised eps (average (cls1 i)))] [:: (1, normalised eps (average (cls2 j)))] (s i j)) /\
  (forall n2 (x2 : 'M[F]_(n2, d)),
    (exists s, llr_Nvs1_vavg ln eps p D1 x2 false = ok s /\ forall i j, is_llr p [:: (1, average (cls1 i))] [:: (1, row j x2)] (s i j)) /\
    (exists s, llr_Nvs1_vavg ln eps p D1 x2 true = ok s /\ forall i j, is_llr p [:: (1, normalised eps (average (cls1 i)))] [:: (1, normalised eps (row j x2))] (s i j))).
Proof.
move=> LN eps M1 M2 d p D1 D2 cls1 cls2 MO S1 S2. rewrite /llr_NvsM_vavg /llr_Nvs1_vavg. split; [|split; [|move=> n2 x2; split]].
- have [s [E H]] := C74_1vs1 LN (averages D1) (averages D2) MO. exists s. split=> // i j. by rewrite -(row_average i S1) -(row_average j S2).
- have [s [E H]] := C74_1vs1 LN (lnorm eps (averages D1)) (lnorm eps (averages D2)) MO. exists s. split=> // i j. by rewrite -(row_average i S1) -(row_average j S2) -!row_lnorm.
- have [s [E H]] := C74_1vs1 LN (averages D1) x2 MO. exists s. split=> // i j. by rewrite -(row_average i S1).
- have [s [E H]] := C74_1vs1 LN (lnorm eps (averages D1)) (lnorm eps x2) MO. exists s. split=> // i j. by rewrite -(row_average i S1) -!row_lnorm.
Qed.
(** score averages *)
Lemma hard_avg n m (x : 'M[F]_(n, m)) (ids : 'I_n -> nat) D k j : compute_stats_hard x ids None None = ok D ->
  sF D k j = \sum_(i | ids i == k) x i j /\ sN D 0 k = #|[pred i | ids i == k]|%:R.
Proof.
move=> E. case: n x ids D k E => [//|n] x ids D k. case: (C74_stats_hard x ids) => _ /(_ isT) [D' [-> [[N [F1 _]] _]]] [<-]. split.
- have := F1 k. move/rowP/(_ j). rewrite mxE => ->. rewrite /first /hard_class big_map big_filter big_enum_cond /= summxE. apply: eq_bigr => i _. by rewrite scale1r mxE.
- rewrite N /total /hard_class big_map big_filter big_enum_cond /= sumr_const. congr (_ *+ _).
Qed.
Theorem C74_savg : is_log ln -> forall n1 n2 d (p : plda F d) (x1 : 'M[F]_(n1, d)) ids1 (x2 : 'M[F]_(n2, d)) ids2, model_ok p -> (0 < n1)%N -> (0 < n2)%N ->
  exists one, (forall i j, is_llr p [:: (1, row i x1)] [:: (1, row j x2)] (one i j)) /\
  (exists s, llr_Nvs1_savg ln p x1 ids1 x2 = ok s /\ forall a j, s a j = (\sum_(i | ids1 i == a) one i j) / #|[pred i | ids1 i == a]|%:R) /\
  (exists s, llr_NvsM_savg ln p x1 ids1 x2 ids2 = ok s /\
    forall a b, s a b = (\sum_(i | ids1 i == a) \sum_(j | ids2 j == b) one i j) / (#|[pred i | ids1 i == a]|%:R * #|[pred j | ids2 j == b]|%:R)).
Proof.
move=> LN n1 n2 d p x1 ids1 x2 ids2 MO P1 P2. have [t [E H]] := C74_1vs1 LN x1 x2 MO. exists (fun i j => t i j). split=> //.
have [D [E1 _]] := (C74_stats_hard t ids1).2 P1.
have N1 : llr_Nvs1_savg ln p x1 ids1 x2 = ok (averages D) by rewrite /llr_Nvs1_savg E /= E1.
have V1 : forall a j, averages D a j = (\sum_(i | ids1 i == a) t i j) / #|[pred i | ids1 i == a]|%:R.
  move=> a j. rewrite mxE. by rewrite (hard_avg a j E1).1 (hard_avg a j E1).2.
split; first by exists (averages D).
have [D2 [E2 _]] := (C74_stats_hard (averages D)^T ids2).2 P2. rewrite /llr_NvsM_savg N1 /= E2 /=. eexists; split; first reflexivity. move=> a b.
rewrite !mxE (hard_avg b a E2).1 (hard_avg b a E2).2. rewrite invfM mulrA. congr (_ / _). rewrite exchange_big mulr_suml /=. apply: eq_bigr => j _. by rewrite mxE V1.
Qed.
(** the book method on statistics of single vectors gives the one against one scores; score_norm and the evaluation scripts rely on it *)
Theorem C74_book_1vs1 : is_log ln -> forall n1 n2 d (p : plda F d) (x1 : 'M[F]_(n1, d)) (x2 : 'M[F]_(n2, d)) s1 s D1 D2, model_ok p ->
  llr_1vs1 ln p x1 x2 = ok s1 -> book_1 x1 = ok D1 -> book_1 x2 = ok D2 -> llr_NvsM_book ln p D1 D2 = ok s ->
  forall (i : 'I_n1) (j : 'I_n2), exists (a : 'I_(num_classes (fun i : 'I_n1 => i : nat))) (b : 'I_(num_classes (fun j : 'I_n2 => j : nat))), a = i :> nat /\ b = j :> nat /\ s a b = s1 i j.
Proof.
move=> LN n1 n2 d p x1 x2 s1 s D1 D2 MO E1 B1 B2 EB i j. have [t [ET H]] := C74_1vs1 LN x1 x2 MO. rewrite E1 in ET. case: ET => ET. rewrite -ET in H.
have K : forall n (x : 'M[F]_(n, d)) D (i : 'I_n), book_1 x = ok D -> exists a : 'I_(num_classes (fun i : 'I_n => i : nat)), a = i :> nat /\
  stats_of (fun k : 'I_(num_classes (fun i : 'I_n => i : nat)) => hard_class x (fun i : 'I_n => i : nat) k) D /\ hard_class x (fun i : 'I_n => i : nat) a = [:: (1, row i x)].
  move=> n x D i0 E. have N0 : (0 < n)%N by case: i0 => m /=; case: (n). have [D' [E' [S LT]]] := (C74_stats_hard x (fun i : 'I_n => i : nat)).2 N0.
  rewrite /book_1 E' in E. case: E => <-. exists (Ordinal (LT i0)). split=> //; split=> //. rewrite /hard_class /=.
  have -> : [seq z <- enum 'I_n | nat_of_ord z == nat_of_ord i0] = [:: i0]; last by [].
  have MI : i0 \in enum 'I_n by rewrite mem_enum. transitivity [seq z <- enum 'I_n | pred1 i0 z]; first by apply: eq_filter => z; rewrite /= -val_eqE. exact: (filter_pred1_uniq (enum_uniq _) MI).
have [a [A1 [SA HA]]] := K _ _ _ i B1. have [b [A2 [SB HB]]] := K _ _ _ j B2. exists a, b. split=> //; split=> //.
have NN : forall n (x : 'M[F]_(n, d)) ids k, nonneg (hard_class x ids k). move=> n x ids k o /mapP [z _ ->]. exact: ler01.
have [t' [EB' HB']] := C74_book LN MO SA SB (fun i => NN _ _ _ _) (fun j => NN _ _ _ _). rewrite EB in EB'. case: EB' => EB'. rewrite -EB' in HB'.
have := HB' a b. rewrite HA HB => Q. exact: is_llr_unique Q (H i j).
Qed.
End P.
Print Assumptions C74_stats_soft. Print Assumptions C74_stats_hard. Print Assumptions C74_center. Print Assumptions C74_1vs1. Print Assumptions C74_symmetric.
Print Assumptions C74_book. Print Assumptions C74_vavg. Print Assumptions C74_savg. Print Assumptions C74_book_1vs1.
