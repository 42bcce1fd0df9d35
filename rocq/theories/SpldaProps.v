(** Scores, posteriors and ELBO of the low rank PLDA models (C76: splda.py, C77: plda.py). *)
From Verif Require Import RingF LinAlg LinTrans LinTransProps LinAlgProps GaussLa Frplda FrpldaProps FrpldaEm Splda.
Set Warnings "-notation-overridden,-ambiguous-paths".
From mathcomp Require Import all_ssreflect all_algebra.
Set Implicit Arguments. Unset Strict Implicit. Unset Printing Implicit Defensive.
Import Order.TTheory GRing.Theory Num.Theory.
Local Open Scope ring_scope.

Section P.
Variable F : rcfType.
Add Ring FRing' : (F_ring F). Add Ring FZRing' : (F_zring F). Add Field FField' : (F_field F). Add Field FZField' : (F_zfield F).
Variable ln : F -> F.
Variable c : F.
Notation lg := (log_gauss ln c).
Notation total := FrpldaProps.total.
Notation half := (Frplda.half F).
(** ** Specification *)
(** f, the logarithm of a density of a variable and data, is e, the log evidence of the data, plus the log density of a Gaussian posterior *)
Definition bayes {e} (f : 'rV[F]_e -> F) (v : F) (P : 'M[F]_e) (m : 'rV[F]_e) : Prop := posdef P /\ forall y, f y = v + lg P m y.
Definition log_evidence {e} (f : 'rV[F]_e -> F) (v : F) : Prop := exists P m, bayes f v P m.
(** the generative model of SPLDA: y standard Gaussian, x Gaussian with mean mu + yV and precision W *)
Definition s_joint {e d} (p : splda F e d) (xs : seq (F * 'rV[F]_d)) (y : 'rV[F]_e) : F :=
  lg 1%:M 0 y + \sum_(o <- xs) o.1 * lg (s_W p) (s_mu p + y *m s_V p) o.2.
Definition s_is_llr {e d} (p : splda F e d) (xs1 xs2 : seq (F * 'rV[F]_d)) (s : F) : Prop :=
  exists e12 e1 e2, log_evidence (s_joint p (xs1 ++ xs2)) e12 /\ log_evidence (s_joint p xs1) e1 /\ log_evidence (s_joint p xs2) e2 /\ s = e12 - e1 - e2.
(** ** Proofs *)
Lemma log_evidence_unique e (f : 'rV[F]_e -> F) v v' : log_evidence f v -> log_evidence f v' -> v = v'.
Proof.
move=> [P [m [D H]]] [P' [m' [D' H']]]. have := @gauss_unique F ln c e P P' m m' v v' D D'. case; last by move=> _ [_].
by move=> y; rewrite -H -H'.
Qed.
Definition lp {e} (VV : 'M[F]_e) (N : F) : 'M[F]_e := 1%:M + N *: VV.
Lemma posdef_1 e : posdef (1%:M : 'M[F]_e).
Proof.
split; first exact: trmx1. move=> v V. rewrite /form mulmx1 lt_neqAle LinTransProps.mul_trmx_ge0 andbT eq_sym. apply: contra V => /eqP E.
apply/eqP. exact: LinTransProps.mul_trmx_eq0.
Qed.
Lemma semi_congr e d (V : 'M[F]_(e, d)) (Wm : 'M[F]_d) : posdef Wm -> possemi (V *m (Wm *m V^T)).
Proof.
move=> D. split; first by rewrite !trmx_mul trmxK D.1 mulmxA. move=> v.
have -> : form (V *m (Wm *m V^T)) v v = form Wm (v *m V) (v *m V) by rewrite /form trmx_mul !mulmxA. exact: (posdef_semi D).2.
Qed.
Lemma lp_ok e (VV : 'M[F]_e) N : possemi VV -> 0 <= N -> posdef (lp VV N).
Proof. move=> S H. apply: posdefD; [exact: posdef_1|exact: possemiZ]. Qed.
Definition s_VV {e d} (p : splda F e d) : 'M[F]_e := s_V p *m (s_W p *m (s_V p)^T).
Definition s_gam {e d} (p : splda F e d) (xs : seq (F * 'rV[F]_d)) : 'rV[F]_e := (first xs - total xs *: s_mu p) *m (s_W p *m (s_V p)^T).
Definition s_ev {e d} (p : splda F e d) (xs : seq (F * 'rV[F]_d)) : F :=
  2%:R^-1 * (total xs * (ln (\det (s_W p)) - d%:R * c) - (\sum_(o <- xs) o.1 * form (s_W p) (o.2 - s_mu p) (o.2 - s_mu p)) - ln (\det (lp (s_VV p) (total xs)))
    + form (invmx (lp (s_VV p) (total xs))) (s_gam p xs) (s_gam p xs)).
Definition s_L {e d} (p : splda F e d) (xs : seq (F * 'rV[F]_d)) : 'M[F]_e := lp (s_VV p) (total xs).
Definition s_m {e d} (p : splda F e d) (xs : seq (F * 'rV[F]_d)) : 'rV[F]_e := s_gam p xs *m invmx (s_L p xs).
Lemma s_L_ok e d (p : splda F e d) xs : posdef (s_W p) -> nonneg xs -> posdef (s_L p xs).
Proof. move=> D NN. apply: lp_ok; [exact: semi_congr|exact: total_nonneg]. Qed.
Lemma s_gam_dot e d (p : splda F e d) xs y : \sum_(o <- xs) o.1 * form (s_W p) (o.2 - s_mu p) (y *m s_V p) = dot (s_gam p xs) y.
Proof.
rewrite /s_gam /first /total. elim: xs => [|o s IH]; first by rewrite !big_nil scale0r subr0 mul0mx /dot mul0mx mxE.
rewrite !big_cons IH scalerDl opprD addrACA -scalerBr [in RHS]mulmxDl dotDl. congr (_ + _). by rewrite -scalemxAl dotZl form_dot /dot trmx_mul !mulmxA.
Qed.
Lemma s_bayes e d (p : splda F e d) xs : is_log ln -> posdef (s_W p) -> nonneg xs -> bayes (s_joint p xs) (s_ev p xs) (s_L p xs) (s_m p xs).
Proof.
move=> LN D NN. have DL := s_L_ok D NN. split=> // y. rewrite /s_joint /log_gauss /s_m sq_complete // /s_ev -/(s_L p xs) subr0 det1 (ln_1 LN).
have -> : \sum_(o <- xs) o.1 * (2%:R^-1 * (ln (\det (s_W p)) - d%:R * c - form (s_W p) (o.2 - (s_mu p + y *m s_V p)) (o.2 - (s_mu p + y *m s_V p)))) =
  2%:R^-1 * (total xs * (ln (\det (s_W p)) - d%:R * c) - (\sum_(o <- xs) o.1 * form (s_W p) (o.2 - s_mu p) (o.2 - s_mu p)) + 2%:R * dot (s_gam p xs) y - total xs * form (s_VV p) y y).
  rewrite -s_gam_dot /total. elim: xs {NN DL} => [|o s IH]; first by rewrite !big_nil !mul0r !mulr0 !subr0 !addr0 mulr0.
  rewrite !big_cons {}IH.
  have -> : form (s_W p) (o.2 - (s_mu p + y *m s_V p)) (o.2 - (s_mu p + y *m s_V p)) =
    form (s_W p) (o.2 - s_mu p) (o.2 - s_mu p) - 2%:R * form (s_W p) (o.2 - s_mu p) (y *m s_V p) + form (s_VV p) y y.
    rewrite opprD addrA form_sub ?D.1 // (formC _ (y *m s_V p) D.1).
    have -> : form (s_W p) (y *m s_V p) (y *m s_V p) = form (s_VV p) y y by rewrite /form /s_VV trmx_mul !mulmxA. by [].
  set a := \sum_(o <- s) o.1. set b := \sum_(o <- s) _. set g := \sum_(o <- s) _. clearbody a b g.
  have Q : forall w h l x k v a b g : F, w * (h * (l - (x - 2%:R * k + v))) + h * (a * l - b + 2%:R * g - a * v) =
    h * ((w + a) * l - (w * x + b) + 2%:R * (w * k + g) - (w + a) * v) by fr. exact: Q.
have -> : form (s_L p xs) y y = form 1%:M y y + total xs * form (s_VV p) y y by rewrite /s_L /lp formPD formPZ.
have Q : forall h n l b g v k ec x i : F, h * (0 - ec - x) + h * (n * k - b + 2%:R * g - n * v) = h * (n * k - b - l + i) + h * (l - ec - (x + n * v - 2%:R * g + i)) by fr.
exact: Q.
Qed.
Lemma s_evidence e d (p : splda F e d) xs : is_log ln -> posdef (s_W p) -> nonneg xs -> log_evidence (s_joint p xs) (s_ev p xs).
Proof. move=> LN D NN. exists (s_L p xs), (s_m p xs). exact: s_bayes. Qed.
(** *** Scores *)
Lemma gram_sum e n1 n2 (R L : 'M[F]_e) (x1 : 'M[F]_(n1, e)) (x2 : 'M[F]_(n2, e)) i j : R \in unitmx -> R^T *m R = L -> posdef L ->
  2%:R * ((x1 *m invmx R) *m (x2 *m invmx R)^T) i j + (sqsum (x1 *m invmx R) i + sqsum (x2 *m invmx R) j) = form (invmx L) (row i x1 + row j x2) (row i x1 + row j x2).
Proof.
move=> U G D. rewrite !sqsum_gram !(gram_form _ _ _ _ U G). set a := row i x1. set b := row j x2. clearbody a b.
rewrite !formDl !formDr (formC b a) ?(posdef_inv D).1 //. have R1 : forall x y z : F, 2%:R * x + (y + z) = y + x + (x + z) by fr. exact: R1.
Qed.
Lemma row_sub n d (x : 'M[F]_(n, d)) v i : row i (x - bcast n v) = row i x - v.
Proof. apply/rowP => j. by rewrite !mxE. Qed.
Lemma lr_llr_ok n1 n2 e d (m : 'rV[F]_d) (WV : 'M[F]_(d, e)) (VV : 'M[F]_e) (x1 : 'M[F]_(n1, d)) (x2 : 'M[F]_(n2, d)) : is_log ln -> possemi VV ->
  exists s, lr_llr_1vs1 ln m WV VV x1 x2 = ok s /\ forall i j, let g1 := (row i x1 - m) *m WV in let g2 := (row j x2 - m) *m WV in
    s i j = half * (form (invmx (lp VV (1 + 1))) (g1 + g2) (g1 + g2) - form (invmx (lp VV 1)) g1 g1 - form (invmx (lp VV 1)) g2 g2 + (ln (\det (lp VV 1)) + ln (\det (lp VV 1)) - ln (\det (lp VV (1 + 1))))).
Proof.
move=> LN S. have D1 := lp_ok S ler01. have D2 := lp_ok S (addr_ge0 ler01 ler01 : (0 : F) <= 1 + 1).
have [r1 [R1 [E1 [L1 [U1 [G1 X1]]]]]] := chol_right_ok LN D1. have [r3 [R3 [E3 [L3 [U3 [G3 X3]]]]]] := chol_right_ok LN D2.
have P1 : lp VV 1 = 1%:M + VV by rewrite /lp scale1r. have P2 : lp VV (1 + 1) = 1%:M + 2%:R *: VV by rewrite /lp -mulr2n.
rewrite /lr_llr_1vs1 -P1 -P2 E1 E3 /= !X1 !X3 /=. eexists; split; first reflexivity. move=> i j. lazy zeta. rewrite mxE L1 L3.
have := gram_sum ((x1 - bcast n1 m) *m WV) ((x2 - bcast n2 m) *m WV) i j U3 G3 D2. rewrite !row_mul !row_sub. set t := _ i j. move=> T.
rewrite ![sqsum (_ *m invmx R1) i]sqsum_gram ![sqsum (_ *m invmx R1) j]sqsum_gram !(gram_form _ _ _ _ U1 G1) !row_mul !row_sub -T.
have Q : forall h a x y z w l1 l3 : F, h * (2%:R * a + (x - y + z - w) + (2%:R * l1 - l3)) = h * (2%:R * a + (x + z) - y - w + (l1 + l1 - l3)) by fr.
exact: Q.
Qed.
Lemma s_llr_raw e d (p : splda F e d) (a b : 'rV[F]_d) : is_log ln -> posdef (s_W p) ->
  let g1 := (a - s_mu p) *m (s_W p *m (s_V p)^T) in let g2 := (b - s_mu p) *m (s_W p *m (s_V p)^T) in
  s_is_llr p [:: (1, a)] [:: (1, b)] (half * (form (invmx (lp (s_VV p) (1 + 1))) (g1 + g2) (g1 + g2) - form (invmx (lp (s_VV p) 1)) g1 g1 - form (invmx (lp (s_VV p) 1)) g2 g2
    + (ln (\det (lp (s_VV p) 1)) + ln (\det (lp (s_VV p) 1)) - ln (\det (lp (s_VV p) (1 + 1)))))).
Proof.
move=> LN D. lazy zeta. have H : forall (o : 'rV[F]_d), nonneg [:: (1, o)] by move=> o z; rewrite inE => /eqP ->; exact: ler01.
have H2 : nonneg ([:: (1, a)] ++ [:: (1, b)]) by exact: nonneg_cat.
exists (s_ev p ([:: (1, a)] ++ [:: (1, b)])), (s_ev p [:: (1, a)]), (s_ev p [:: (1, b)]). do 3 (split; first exact: s_evidence).
rewrite /s_ev /s_gam total_cat first_cat big_cat /= /total /first !big_seq1 /= !scale1r !mul1r /Frplda.half.
have -> : (a + b - (1 + 1) *: s_mu p) *m (s_W p *m (s_V p)^T) = (a - s_mu p) *m (s_W p *m (s_V p)^T) + (b - s_mu p) *m (s_W p *m (s_V p)^T).
  by rewrite -mulmxDl scalerDl scale1r opprD addrACA.
set g1 := (a - _) *m _. set g2 := (b - _) *m _.
set a1 := form (invmx (lp (s_VV p) 1)) g1 g1. set a2 := form (invmx (lp (s_VV p) 1)) g2 g2. set a3 := form (invmx (lp (s_VV p) (1 + 1))) _ _. clearbody a1 a2 a3.
have Q : forall h a1 a2 a3 s1 s2 l1 l3 k : F, h * (a3 - a1 - a2 + (l1 + l1 - l3)) = h * ((1 + 1) * k - (s1 + s2) - l3 + a3) - h * (k - s1 - l1 + a1) - h * (k - s2 - l1 + a2) by fr.
exact: Q.
Qed.
(** one against one: every score is the log likelihood ratio of the two vectors *)
Theorem C76_1vs1 : is_log ln -> forall n1 n2 e d (p : splda F e d) (x1 : 'M[F]_(n1, d)) (x2 : 'M[F]_(n2, d)), posdef (s_W p) ->
  exists s, s_llr_1vs1 ln p x1 x2 = ok s /\ forall i j, s_is_llr p [:: (1, row i x1)] [:: (1, row j x2)] (s i j).
Proof.
move=> LN n1 n2 e d p x1 x2 D. have [s [E H]] := lr_llr_ok (s_mu p) (s_W p *m (s_V p)^T) x1 x2 LN (semi_congr (s_V p) D). exists s. split; first exact: E.
move=> i j. rewrite H. exact: s_llr_raw.
Qed.

(** *** Posteriors *)
Definition lmean {e} (VV : 'M[F]_e) (N : F) (g : 'rV[F]_e) : 'rV[F]_e := g *m invmx (lp VV N).
Lemma lr_loop_ok M e (VV : 'M[F]_e) (gamma : 'M[F]_(M, e)) (N : 'rV[F]_M) gs st : is_log ln -> possemi VV -> valid N gs -> (forall a, (hits gs a <= 1)%N) ->
  exists r, lr_loop ln VV gamma gs st = ok r /\
  (forall a, if (0 < hits gs a)%N then row a (spy r) = lmean VV (N 0 a) (row a gamma) /\ spSigma r a = invmx (lp VV (N 0 a)) /\
      splogpy r 0 a = splogpy st 0 a + half * (ln (\det (lp VV (N 0 a))) - dot (lmean VV (N 0 a) (row a gamma)) (row a gamma))
    else row a (spy r) = row a (spy st) /\ spSigma r a = spSigma st a /\ splogpy r 0 a = splogpy st 0 a) /\
  spPy r = spPy st + \sum_a (hits gs a)%:R *: invmx (lp VV (N 0 a)) /\ spRy r = spRy st + \sum_a ((hits gs a)%:R * N 0 a) *: invmx (lp VV (N 0 a)).
Proof.
move=> LN MO. elim: gs st => [|[i k] gs IH] st /=.
  move=> _ _. exists st. split=> //; split=> //. split; by rewrite big1 ?addr0 // => a _; rewrite ?mul0r scale0r.
move=> [HV [K0 V]] H. have D := lp_ok MO K0. have [r0 [E0 [RT [LT [IV [LD _]]]]]] := (C73_invert_pdmat LN true D.1).2 D.
have UD := posdef_unit D. have PI : p_inv r0 = invmx (lp VV k) by rewrite -[p_inv r0](mulmxK UD) IV mul1mx.
have PR : forall a, p_right r0 (row a gamma) = lmean VV k (row a gamma) by move=> a; rewrite -[p_right _ _](mulmxK UD) RT.
rewrite -/(lp VV k) E0 /=. set st' := SPost _ _ _ _ _. have [|r [E [HR [HP HQ]]]] := IH st' V; first by move=> a; apply: leq_trans (H a); rewrite /hits /= leq_addl.
exists r. split=> //. have ROW : forall a, row a (spy st') = if i a then lmean VV k (row a gamma) else row a (spy st).
  move=> a. apply/rowP => j. rewrite !mxE. case: (i a); by rewrite ?PR ?mxE.
have CARD : forall q : 'I_M -> F, #|i|%:R *: invmx (lp VV k) = \sum_a (i a)%:R *: invmx (lp VV (N 0 a)).
  move=> _. rewrite -sum1_card natr_sum scaler_suml big_mkcond /=. apply: eq_bigr => a _. rewrite -topredE /=. case IA: (i a); last by rewrite scale0r. by rewrite (HV a IA).
split.
- move=> a. rewrite /hits /=. have := HR a. have := H a. rewrite /hits /=. case IA: (i a) => /=.
    rewrite addSn ltnS leqn0 add0n => /eqP ->. move=> /= [A1 [A2 A3]]. have RA := ROW a. rewrite IA in RA. rewrite A1 A2 A3 PI. split; first by rewrite -(HV a IA). split; first by rewrite (HV a IA).
    rewrite mxE IA LD (HV a IA). congr (_ + _ * (_ - _)).
    rewrite (HV a IA) in RA. rewrite -RA /dot [RHS]mxE. apply: eq_bigr => j _. by rewrite !mxE.
  rewrite add0n => _. have RA := ROW a. rewrite IA in RA. case: ifP => _ [A1 [A2 A3]]; rewrite A1 A2 A3; split=> //; split=> //; by rewrite mxE IA.
- split.
    rewrite HP /= PI -addrA. congr (_ + _). rewrite (CARD (fun _ => 0)) -big_split /=. apply: eq_bigr => a _. by rewrite -scalerDl -natrD.
  rewrite HQ /= PI -addrA. congr (_ + _). rewrite -scalerA (CARD (fun _ => 0)) scaler_sumr -big_split /=. apply: eq_bigr => a _.
  rewrite natrD mulrDl scalerDl. congr (_ + _). case IA: (i a); last by rewrite mul0r !scale0r scaler0. by rewrite mul1r scale1r (HV a IA).
Qed.
(** the centring of the statistics in the code, F - mu, is right for a class if its weight is one or the mean is zero *)
Definition centred {M d} (D : stats F M d) (m : 'rV[F]_d) : Prop := forall k, sN D 0 k *: m = m.
Lemma lr_posterior_ok M e d (m : 'rV[F]_d) (WV : 'M[F]_(d, e)) (VV : 'M[F]_e) (D : stats F M d) cls b : is_log ln -> possemi VV -> stats_of cls D -> (forall k, nonneg (cls k)) ->
  centred D m -> exists r, lr_posterior ln c m WV VV D b = ok r /\
  (forall k, let L := lp VV (total (cls k)) in let g := (first (cls k) - total (cls k) *: m) *m WV in
    row k (spy r) = g *m invmx L /\ spSigma r k = invmx L /\ splogpy r 0 k = lg L (g *m invmx L) 0) /\
  spPy r = \sum_k spSigma r k /\ spRy r = \sum_k total (cls k) *: spSigma r k.
Proof.
move=> LN S ST NN CE. have N0 : forall a, 0 <= sN D 0 a by move=> a; rewrite ST.1 total_nonneg. have [V H] := groups_ok b N0.
rewrite /lr_posterior. set gamma := _ *m WV. set st := SPost _ _ _ _ _.
have [|r [E [R1 [R2 R3]]]] := lr_loop_ok gamma st LN S V; first by move=> a; rewrite H. exists r. split=> //.
have G : forall a, row a gamma = (first (cls a) - total (cls a) *: m) *m WV by move=> a; rewrite row_mul row_sub ST.2.1 -ST.1 CE.
have SG : forall k, spSigma r k = invmx (lp VV (total (cls k))) by move=> k; have := R1 k; rewrite H /= => -[_ [-> _]]; rewrite ST.1.
split.
- move=> k. lazy zeta. have := R1 k. rewrite H /= => -[A1 [A2 A3]]. rewrite A1 A2 A3 G mxE ST.1 /lmean. split=> //; split=> //.
  rewrite lg0 //. apply: lp_ok => //. exact: total_nonneg.
- split.
    rewrite R2 /= add0r. apply: eq_bigr => k _. by rewrite H scale1r SG ST.1.
  rewrite R3 /= add0r. apply: eq_bigr => k _. by rewrite H mul1r SG ST.1.
Qed.
(** for each class compute_py_g_x returns the mean and the covariance of the posterior of y and the log posterior density at zero, in both ways
    of looping over the classes, and the sums of the covariances; provided the mean is zero or the class weights are one *)
Theorem C76_posterior : is_log ln -> forall M e d (p : splda F e d) (D : stats F M d) cls N_is_int, posdef (s_W p) -> stats_of cls D -> (forall k, nonneg (cls k)) ->
  s_mu p = 0 \/ (forall k, total (cls k) = 1) ->
  exists r, s_compute_py_g_x ln c p D N_is_int = ok r /\
  (forall k, exists v, bayes (s_joint p (cls k)) v (invmx (spSigma r k)) (row k (spy r)) /\ splogpy r 0 k = lg (invmx (spSigma r k)) (row k (spy r)) 0) /\
  spPy r = \sum_k spSigma r k /\ spRy r = \sum_k total (cls k) *: spSigma r k.
Proof.
move=> LN M e d p D cls b PW ST NN CE. have CE' : centred D (s_mu p).
  move=> k. rewrite ST.1. case: CE => [->|->]; by rewrite ?scaler0 ?scale1r.
have [r [E [H [H1 H2]]]] := lr_posterior_ok (s_W p *m (s_V p)^T) b LN (semi_congr (s_V p) PW) ST NN CE'. exists r. split=> //. split=> //.
move=> k. have [A1 [A2 A3]] := H k. exists (s_ev p (cls k)). rewrite A2 invmxK A1. split; last exact: A3. exact: s_bayes.
Qed.
(** *** ELBO *)
Lemma lg_zero e d (p : splda F e d) xs : is_log ln -> posdef (s_W p) -> nonneg xs -> s_ev p xs = s_joint p xs 0 - lg (s_L p xs) (s_m p xs) 0.
Proof. move=> LN PW NN. rewrite (s_bayes LN PW NN).2 addrK. by []. Qed.
Lemma inner_D d (A X Y : 'M[F]_d) : inner A (X + Y) = inner A X + inner A Y.
Proof. by rewrite !inner_tr [(X + Y)^T]linearD /= mulmxDr mxtraceD. Qed.
Lemma inner_sum (I : Type) (r : seq I) d (A : 'M[F]_d) (f : I -> 'M[F]_d) : inner A (\sum_(i <- r) f i) = \sum_(i <- r) inner A (f i).
Proof. rewrite inner_tr trmx_sum mulmx_sumr raddf_sum. apply: eq_bigr => i _. by rewrite inner_tr. Qed.
Lemma inner_Z d (A X : 'M[F]_d) k : inner A (k *: X) = k * inner A X.
Proof. rewrite /inner mulr_sumr. apply: eq_bigr => i _. rewrite mulr_sumr. apply: eq_bigr => j _. rewrite mxE. by rewrite mulrCA. Qed.
Lemma inner_form d (A : 'M[F]_d) v : inner A (v^T *m v) = form A v v.
Proof. by rewrite inner_tr trmx_mul trmxK form_trace. Qed.
Lemma s_hat M d (D : stats F M d) cls m : stats_of cls D ->
  let Fmu := (\sum_i row i (sF D))^T *m m in sS D - Fmu - Fmu^T + (\sum_i sN D 0 i) *: (m^T *m m) = \sum_k \sum_(o <- cls k) o.1 *: ((o.2 - m)^T *m (o.2 - m)).
Proof.
move=> ST. lazy zeta. have EF : \sum_i row i (sF D) = \sum_k first (cls k) by apply: eq_bigr => k _; rewrite ST.2.1.
have EN : \sum_i sN D 0 i = \sum_k total (cls k) by apply: eq_bigr => k _; rewrite ST.1. rewrite EF EN ST.2.2 trmx_sum mulmx_suml trmx_sum scaler_suml -!sumrB -big_split /=.
apply: eq_bigr => k _. rewrite /second /first /total trmx_sum mulmx_suml trmx_sum scaler_suml -!sumrB -big_split /=. apply: eq_bigr => o _.
rewrite [(o.1 *: o.2)^T]linearZ /= -scalemxAl [(o.1 *: _)^T]linearZ /= -!scalerBr -scalerDr trmx_mul trmxK [(o.2 - m)^T]linearB /= mulmxBl !mulmxBr. congr (_ *: _).
by rewrite opprB addrA [RHS]addrAC. 
Qed.
Lemma mul_rows M e d (f : 'M[F]_(M, d)) (g : 'M[F]_(M, e)) : f^T *m g = \sum_k (row k f)^T *m row k g.
Proof. apply/matrixP => i j. rewrite summxE mxE. apply: eq_bigr => k _. by rewrite [RHS]mxE big_ord1 !mxE. Qed.
Lemma s_estep_ok M e d (p : splda F e d) (D : stats F M d) cls b : is_log ln -> posdef (s_W p) -> stats_of cls D -> (forall k, nonneg (cls k)) ->
  s_mu p = 0 \/ (forall k, total (cls k) = 1) ->
  s_Estep ln c p D b = ok (SStats (\sum_k total (cls k)) M%:R (\sum_k first (cls k)) (\sum_k second (cls k)) (\sum_k lg (s_L p (cls k)) (s_m p (cls k)) 0)
    (\sum_k s_m p (cls k)) (\sum_k total (cls k) *: s_m p (cls k)) (\sum_k total (cls k) *: (invmx (s_L p (cls k)) + (s_m p (cls k))^T *m s_m p (cls k)))
    (\sum_k (first (cls k))^T *m s_m p (cls k)) (\sum_k (invmx (s_L p (cls k)) + (s_m p (cls k))^T *m s_m p (cls k)))).
Proof.
move=> LN PW ST NN CE. have CE' : centred D (s_mu p).
  move=> k. rewrite ST.1. case: CE => [->|->]; by rewrite ?scaler0 ?scale1r.
have [r [E [H [H1 H2]]]] := lr_posterior_ok (s_W p *m (s_V p)^T) b LN (semi_congr (s_V p) PW) ST NN CE'.
have SG : forall k, spSigma r k = invmx (s_L p (cls k)) by move=> k; have [_ [-> _]] := H k.
have RY : forall k, row k (spy r) = s_m p (cls k) by move=> k; have [-> _] := H k.
rewrite /s_Estep /s_compute_py_g_x E /=. congr (ok _).
have MY : forall (X : 'M[F]_(M, e)) (g : 'I_M -> F), (forall k, row k X = g k *: s_m p (cls k)) -> X^T *m spy r = \sum_k g k *: ((s_m p (cls k))^T *m s_m p (cls k)).
  move=> X g HX. rewrite mul_rows. apply: eq_bigr => k _. by rewrite HX RY [(_ *: _)^T]linearZ /= -scalemxAl.
have NY : forall k, row k (\matrix_(i, j) (spy r i j * sN D 0 i)) = total (cls k) *: s_m p (cls k).
  move=> k. rewrite -RY -ST.1. apply/rowP => j. by rewrite !mxE mulrC.
congr SStats.
- by apply: eq_bigr => k _; rewrite ST.1.
- by apply: eq_bigr => k _; rewrite ST.2.1.
- exact: ST.2.2.
- by apply: eq_bigr => k _; have [_ [_ ->]] := H k.
- by apply: eq_bigr => k _; rewrite RY.
- by apply: eq_bigr => k _; rewrite NY.
- rewrite H2 (MY _ _ NY) -big_split /=. apply: eq_bigr => k _. by rewrite SG scalerDr.
- rewrite mul_rows. by apply: eq_bigr => k _; rewrite ST.2.1 RY.
- rewrite H1 (MY _ (fun _ => 1)); last by move=> k; rewrite RY scale1r. rewrite -big_split /=. apply: eq_bigr => k _. by rewrite SG scale1r.
Qed.
(** the ELBO is the log evidence of the data, summed over the classes *)
Theorem C76_elbo : is_log ln -> forall M e d (p : splda F e d) (D : stats F M d) cls N_is_int, posdef (s_W p) -> stats_of cls D -> (forall k, nonneg (cls k)) ->
  s_mu p = 0 \/ (forall k, total (cls k) = 1) ->
  exists s v, s_Estep ln c p D N_is_int = ok s /\ s_elbo ln c p s = ok (\sum_k v k) /\ forall k, log_evidence (s_joint p (cls k)) (v k).
Proof.
move=> LN M e d p D cls b PW ST NN CE. have E := s_estep_ok b LN PW ST NN CE. eexists; exists (fun k => s_ev p (cls k)). split; first exact: E.
split; last by move=> k; exact: s_evidence.
rewrite /s_elbo (logdet_ok LN PW) /=. congr (ok _).
under [RHS]eq_bigr => k _ do rewrite (lg_zero LN PW (NN k)). rewrite sumrB. congr (_ - _).
have := s_hat (s_mu p) ST. lazy zeta. have -> : \sum_i row i (sF D) = \sum_k first (cls k) by apply: eq_bigr => k _; rewrite ST.2.1.
have -> : \sum_i sN D 0 i = \sum_k total (cls k) by apply: eq_bigr => k _; rewrite ST.1. rewrite ST.2.2 => ->.
rewrite /s_joint big_split addrC /=. congr (_ + _).
  rewrite sumr_const card_ord /log_gauss /Frplda.half subrr form0l det1 (ln_1 LN) -[RHS]mulr_natl.
  have Q : forall h m k x : F, - (h * m * k * x) = m * (h * (0 - k * x - 0)) by fr. exact: Q.
rewrite inner_sum. under [X in _ - X]eq_bigr => k _ do rewrite inner_sum.
have -> : \sum_k \sum_(o <- cls k) o.1 * lg (s_W p) (s_mu p + 0 *m s_V p) o.2 = \sum_k half * (total (cls k) * (ln (\det (s_W p)) - d%:R * c) - \sum_(o <- cls k) inner (s_W p) (o.1 *: ((o.2 - s_mu p)^T *m (o.2 - s_mu p)))).
  apply: eq_bigr => k _. rewrite /total mulr_suml -sumrB mulr_sumr. apply: eq_bigr => o _. rewrite /log_gauss mul0mx addr0 inner_Z inner_form /Frplda.half.
  have Q : forall h w l x : F, w * (h * (l - x)) = h * (w * l - w * x) by fr. exact: Q.
rewrite -mulr_sumr sumrB -mulr_suml.
have Q : forall h n d c l x : F, h * (- (n * d * c) + n * l - x) = h * (n * (l - d * c) - x) by fr. exact: Q.
Qed.
End P.
Print Assumptions C76_1vs1. Print Assumptions C76_posterior. Print Assumptions C76_elbo.
