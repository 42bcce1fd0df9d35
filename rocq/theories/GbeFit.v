(** Training of the linear Gaussian back-end (C83): linear_gbe.py:159-231. *)
From Verif Require Import RingF LinAlg LinAlgProps GaussLa Frplda FrpldaProps FrpldaEm Splda SpldaProps SpldaEm Gbe GbeProps.
Set Warnings "-notation-overridden,-ambiguous-paths".
From mathcomp Require Import all_ssreflect all_algebra.
Set Implicit Arguments. Unset Strict Implicit. Unset Printing Implicit Defensive.
Import Order.TTheory GRing.Theory Num.Theory.
Local Open Scope ring_scope.

Section P.
Variable F : rcfType.
Add Ring FRing' : (F_ring F). Add Ring FZRing' : (F_zring F). Add Field FField' : (F_field F). Add Field FZField' : (F_zfield F).
Variables (ln : F -> F) (pi : F).
Notation lg := (log_gauss ln (ln (2%:R * pi))).
Notation config := (Gbe.config F).
Notation fit := (Gbe.fit ln).
Notation half := (2%:R^-1 : F).

(** ** Specification *)
(** the weight of the data of class k *)
Definition count {n K} (pt : 'M[F]_(n, K)) (k : 'I_K) : F := \sum_i pt i k.
Definition prior_dof {K d} (pr : option (prior F K d)) : F := if pr is Some p then p_nu p else 0.
(** what each class counts in the objective: 1, or the inverse of its amount of data when the classes are balanced *)
Definition class_weight {n K d} (bal : bool) (pr : option (prior F K d)) (pt : 'M[F]_(n, K)) (k : 'I_K) : F :=
  if bal then (count pt k + prior_dof pr / K%:R)^-1 else 1.
(** the logarithm, up to a constant, of the prior density of the parameters of a class: mean around the prior mean with precision beta W, and
    W around the prior W with nu degrees of freedom for all the classes *)
Definition log_prior {K d} (with_mu : bool) (pr : option (prior F K d)) (m : 'rV[F]_d) (W : 'M[F]_d) (k : 'I_K) : F :=
  if pr is Some p then
    (if with_mu then - (half * p_beta p 0 k * form W (m - row k (p_mu p)) (m - row k (p_mu p))) else 0)
    + half * (p_nu p / K%:R) * (ln (\det W) - \tr (W *m invmx (p_W p)))
  else 0.
(** the objective of the training: the log likelihood of the data plus the log prior, class by class *)
Definition objective {n K d} (bal with_mu : bool) (pr : option (prior F K d)) (x : 'M[F]_(n, d)) (pt : 'M[F]_(n, K)) (mu : 'M[F]_(K, d)) (W : 'M[F]_d) : F :=
  \sum_k class_weight bal pr pt k * (\sum_i pt i k * lg W (row k mu) (row i x) + log_prior with_mu pr (row k mu) W k).
Definition prior_ok {K d} (pr : option (prior F K d)) : Prop :=
  if pr is Some p then posdef (p_W p) /\ (forall k, 0 <= p_beta p 0 k) /\ 0 <= p_nu p else True.

(** ** Lemmas *)
Section Class.
Variables (n d : nat) (x : 'M[F]_(n, d)) (p : 'I_n -> F) (W : 'M[F]_d).
Hypothesis SW : W^T = W.
Let N := \sum_i p i.
Definition scat (m : 'rV[F]_d) : F := \sum_i p i * form W (row i x - m) (row i x - m).
Definition first_mom : 'rV[F]_d := \sum_i p i *: row i x.
Lemma form_suml (m : 'rV[F]_d) : form W m first_mom = \sum_i p i * form W m (row i x).
Proof. rewrite /first_mom. elim/big_rec2: _ => [|i a b _ <-]; first by rewrite form0r. by rewrite formDr formZr. Qed.
Lemma scat_form m : scat m = \sum_i p i * form W (row i x) (row i x) - 2%:R * form W m first_mom + N * form W m m.
Proof.
rewrite /scat form_suml /N mulr_suml mulr_sumr -sumrB -big_split /=. apply: eq_bigr => i _. rewrite form_sub //.
have Q : forall p a b e : F, p * (a - 2%:R * b + e) = p * a - 2%:R * (p * b) + p * e by fr. exact: Q.
Qed.
(** completing the square in the mean *)
Lemma scat_shift (b : F) (z m m1 : 'rV[F]_d) : b *: z + first_mom = (N + b) *: m1 ->
  scat m + b * form W (m - z) (m - z) = scat m1 + b * form W (m1 - z) (m1 - z) + (N + b) * form W (m - m1) (m - m1).
Proof.
move=> E. rewrite !scat_form !form_sub //. have E2 : first_mom = (N + b) *: m1 - b *: z by rewrite -E addrAC subrr add0r.
rewrite E2 !formDr !formNr !formZr. rewrite (formC m m1 SW) (formC z m SW) (formC z m1 SW).
set s := \sum_i _. set mm := form W m m. set zz := form W z z. set oo := form W m1 m1. set mo := form W m1 m. set mz := form W m z. set oz := form W m1 z.
have Q : forall s mm zz oo mo mz oz N b : F, s - 2%:R * ((N + b) * mo - b * mz) + N * mm + b * (mm - 2%:R * mz + zz) =
  s - 2%:R * ((N + b) * oo - b * oz) + N * oo + b * (oo - 2%:R * oz + zz) + (N + b) * (mm - 2%:R * mo + oo) by fr.
exact: Q.
Qed.
End Class.
Lemma scat_trace n d (x : 'M[F]_(n, d)) p (W : 'M[F]_d) (m : 'rV[F]_d) :
  \tr (W *m \sum_i p i *: ((row i x - m)^T *m (row i x - m))) = scat x p W m.
Proof.
rewrite mulmx_sumr raddf_sum /=. apply: eq_bigr => i _. by rewrite -scalemxAr mxtraceZ -form_trace.
Qed.
Lemma class_scatter n K d (x : 'M[F]_(n, d)) (pt : 'M[F]_(n, K)) (m : 'rV[F]_d) k :
  let delta : 'M[F]_(n, d) := \matrix_(i, j) (x i j - m 0 j) in
  (\matrix_(j, i) (pt i k * delta^T j i)) *m delta = \sum_i pt i k *: ((row i x - m)^T *m (row i x - m)).
Proof.
lazy zeta. apply/matrixP => a b. rewrite summxE !mxE. apply: eq_bigr => i _. rewrite !mxE big_ord1 !mxE. by rewrite mulrA.
Qed.

Notation counts pt := (\row_k count pt k).
(** the total weight the matrix S is divided by *)
Definition mass {n K d} (bal : bool) (pr : option (prior F K d)) (pt : 'M[F]_(n, K)) : F :=
  \sum_k class_weight bal pr pt k * (count pt k + prior_dof pr / K%:R).
(** what fit_S takes for the scatter of class k, seen through W *)
Definition spread {n K d} (um : bool) (pr : option (prior F K d)) (x : 'M[F]_(n, d)) (pt : 'M[F]_(n, K)) (xbar : 'M[F]_(K, d)) (W : 'M[F]_d) (k : 'I_K) : F :=
  scat x (pt ^~ k) W (row k xbar) +
  (if pr is Some p then
     (if um then count pt k * (1 - count pt k / (count pt k + p_beta p 0 k)) * form W (row k xbar - row k (p_mu p)) (row k xbar - row k (p_mu p)) else 0)
     + p_nu p / K%:R * \tr (W *m invmx (p_W p)) else 0).
Lemma sym_sq d (v : 'rV[F]_d) : (v^T *m v)^T = v^T *m v. Proof. by rewrite trmx_mul trmxK. Qed.
Lemma sym_scat n d (x : 'M[F]_(n, d)) p (m : 'rV[F]_d) : (\sum_i p i *: ((row i x - m)^T *m (row i x - m)))^T = \sum_i p i *: ((row i x - m)^T *m (row i x - m)).
Proof. rewrite trmx_sum. apply: eq_bigr => i _. by rewrite linearZ /= sym_sq. Qed.
Lemma natK (K : nat) : K.+1%:R != 0 :> F. Proof. by rewrite pnatr_eq0. Qed.
Lemma mass_ok n K d bal (pr : option (prior F K.+1 d)) (pt : 'M[F]_(n, K.+1)) : (forall k, count pt k + prior_dof pr / K.+1%:R != 0) ->
  mass bal pr pt = if bal then K.+1%:R else prior_dof pr + \sum_k (counts pt) 0 k.
Proof.
move=> H. rewrite /mass /class_weight. case: bal.
  under eq_bigr do rewrite mulVf //. by rewrite sumr_const card_ord.
under eq_bigr do rewrite mul1r. rewrite big_split /= sumr_const card_ord -[_ / _ *+ _]mulr_natr mulfVK ?natK // addrC. congr (_ + _). apply: eq_bigr => k _. by rewrite mxE.
Qed.
Lemma fit_S_ok n K d (cf : config) (pr : option (prior F K.+1 d)) (x : 'M[F]_(n, d)) (pt : 'M[F]_(n, K.+1)) xbar :
  is_log ln -> prior_ok pr -> (forall k, 0 < count pt k) -> exists S, fit_S ln cf pr x pt (counts pt) xbar = ok (S, prior_dof pr) /\ S^T = S /\
  forall W, mass (balance cf) pr pt * \tr (W *m S) = \sum_k class_weight (balance cf) pr pt k * spread (update_mu cf) pr x pt xbar W k.
Proof.
move=> LN PO CP. have DP : 0 <= prior_dof pr by case: pr PO => [q [_ []]|]. 
have ND : forall k, 0 < count pt k + prior_dof pr / K.+1%:R by move=> k; apply: ltr_paddr; [apply: divr_ge0 => //; exact: ler0n|exact: CP].
have N0 : forall k, count pt k + prior_dof pr / K.+1%:R != 0 by move=> k; rewrite gt_eqF.
have MP : mass (balance cf) pr pt != 0.
  rewrite mass_ok //. case: (balance cf); first exact: natK. rewrite gt_eqF //. apply: ltr_paddl => //. rewrite (bigD1 0) //= mxE ltr_paddr // sumr_ge0 // => k _. by rewrite mxE ltW.
set w := class_weight (balance cf) pr pt.
set Sk := fun k => \sum_i pt i k *: ((row i x - row k xbar)^T *m (row i x - row k xbar)) + (if pr is Some p then if update_mu cf then
  (count pt k * (1 - count pt k / (count pt k + p_beta p 0 k))) *: ((row k xbar - row k (p_mu p))^T *m (row k xbar - row k (p_mu p))) else 0 else 0).
set S0 := if pr is Some p then (prior_dof pr / K.+1%:R) *: invmx (p_W p) else 0.
set Sc := (mass (balance cf) pr pt)^-1 *: \sum_k w k *: (Sk k + S0). exists Sc. split.
  have -> : Sc = if balance cf then K.+1%:R^-1 *: (\sum_k w k *: (Sk k + S0)) else (prior_dof pr + \sum_k (counts pt) 0 k)^-1 *: (\sum_k w k *: (Sk k + S0)).
    rewrite /Sc mass_ok //. by case: (balance cf).
  have E0 : (if pr is Some p then let! i := invert_pdmat ln (p_W p) false in ok (if balance cf then (K.+1%:R - \sum_k (counts pt) 0 k / ((counts pt) 0 k + prior_dof pr / K.+1%:R)) *: p_inv i else prior_dof pr *: p_inv i) else ok 0) = ok (\sum_k w k *: S0).
    rewrite /S0. case EP: (pr) PO => [q|] PO; last by rewrite big1 // => k _; rewrite scaler0. have D := PO.1. have PD : p_nu q = prior_dof pr by rewrite EP.
    have [i [E _]] := (C73_invert_pdmat LN false D.1).2 D. rewrite E /=. rewrite (inv_found LN D.1 E).2.2.1. congr (ok _).
    have -> : \sum_k w k *: ((p_nu q / K.+1%:R) *: invmx (p_W q)) = (\sum_k w k * (p_nu q / K.+1%:R)) *: invmx (p_W q).
      rewrite scaler_suml. apply: eq_bigr => k _. by rewrite scalerA.
    congr (_ *: _) || idtac. rewrite PD. rewrite /w /class_weight. case: (balance cf).
      congr (_ *: _). rewrite [X in X - _](_ : _ = \sum_(k < K.+1) 1); last by rewrite sumr_const card_ord.
      rewrite -sumrB. apply: eq_bigr => k _.
      have Q : forall a b : F, a + b != 0 -> 1 - a / (a + b) = (a + b)^-1 * b.
        move=> a b H. rewrite -[X in X - _](mulfV H) -mulrBl mulrC. congr (_ * _). by rewrite addrAC subrr add0r.
      rewrite mxE. exact: Q.
    congr (_ *: _). under [RHS]eq_bigr do rewrite mul1r. by rewrite sumr_const card_ord -[_ *+ _]mulr_natr mulfVK // natK.
  rewrite /fit_S -/(prior_dof pr) E0.
  have -> : \sum_k w k *: (Sk k + S0) = \sum_k w k *: S0 + \sum_k w k *: Sk k.
    rewrite -big_split /=. apply: eq_bigr => k _. by rewrite scalerDr addrC.
  have ES : forall k, (let delta : 'M[F]_(n, d) := \matrix_(i, j) (x i j - xbar k j) in
    let s := (\matrix_(j, i) (pt i k * delta^T j i)) *m delta in
    let s := if pr is Some p then
        if update_mu cf then
          let alpha := (counts pt) 0 k / ((counts pt) 0 k + p_beta p 0 k) in
          let md := row k xbar - row k (p_mu p) in
          s + ((counts pt) 0 k * (1 - alpha)) *: (md^T *m md)
        else s
      else s in
    if balance cf then ((counts pt) 0 k + prior_dof pr / K.+1%:R)^-1 *: s else s) = w k *: Sk k.
    move=> k. lazy zeta. 
    have -> : (\matrix_(i, j) (x i j - xbar k j) : 'M[F]_(n, d)) = \matrix_(i, j) (x i j - row k xbar 0 j) by apply/matrixP => i j; rewrite !mxE.
    rewrite (class_scatter x pt (row k xbar) k) /w /class_weight /Sk mxE.
    case: (balance cf); rewrite ?scale1r; [congr (_ *: _)|]; case: (pr) => [q|]; rewrite ?addr0 //; case: (update_mu cf); by rewrite ?addr0.
  exact: (congr1 (fun a => ok ((if balance cf then K.+1%:R^-1 *: (\sum_k w k *: S0 + a) else (prior_dof pr + \sum_k (counts pt) 0 k)^-1 *: (\sum_k w k *: S0 + a)), prior_dof pr))
    (eq_bigr _ (fun k _ => ES k))).
split.
  rewrite /Sc linearZ /= trmx_sum. congr (_ *: _). apply: eq_bigr => k _. rewrite linearZ /= linearD /=. congr (_ *: (_ + _)).
    rewrite /Sk linearD /= sym_scat. congr (_ + _). case: (pr) => [q|]; last by rewrite trmx0. case: (update_mu cf); last by rewrite trmx0.
    by rewrite linearZ /= sym_sq.
  rewrite /S0. case: pr PO {DP ND N0 MP w Sk S0 Sc} => [q [D _]|_]; last by rewrite trmx0. by rewrite linearZ /= (posdef_inv D).1.
move=> W. rewrite /Sc -scalemxAr mxtraceZ mulrA mulfV // mul1r mulmx_sumr raddf_sum /=. apply: eq_bigr => k _. rewrite -scalemxAr mxtraceZ. congr (_ * _).
rewrite mulmxDr mxtraceD /spread /Sk mulmxDr mxtraceD scat_trace -addrA. congr (_ + _). rewrite /S0. case: (pr) => [q|]; last by rewrite mulmx0 mxtrace0 addr0.
rewrite -[W *m ((_ / _) *: _)]scalemxAr mxtraceZ /=. congr (_ + _). case: (update_mu cf); last by rewrite mulmx0 mxtrace0. by rewrite -scalemxAr mxtraceZ -form_trace.
Qed.

(** minus twice what the objective says about the mean and the matrix of class k, but for the log determinant *)
Definition pen {n K d} (um : bool) (pr : option (prior F K d)) (x : 'M[F]_(n, d)) (pt : 'M[F]_(n, K)) (m : 'rV[F]_d) (W : 'M[F]_d) (k : 'I_K) : F :=
  scat x (pt ^~ k) W m +
  (if pr is Some p then
     (if um then p_beta p 0 k * form W (m - row k (p_mu p)) (m - row k (p_mu p)) else 0)
     + p_nu p / K%:R * \tr (W *m invmx (p_W p)) else 0).
Lemma obj_form n K d bal um (pr : option (prior F K d)) (x : 'M[F]_(n, d)) (pt : 'M[F]_(n, K)) mu W :
  objective bal um pr x pt mu W = half * (mass bal pr pt * ln (\det W) - (\sum_k class_weight bal pr pt k * count pt k) * (d%:R * ln (2%:R * pi))
    - \sum_k class_weight bal pr pt k * pen um pr x pt (row k mu) W k).
Proof.
rewrite /objective /mass !mulr_suml -!sumrB mulr_sumr. apply: eq_bigr => k _. set w := class_weight _ _ _ _. set c := ln (2%:R * pi).
have -> : \sum_i pt i k * lg W (row k mu) (row i x) = half * (count pt k * (ln (\det W) - d%:R * c) - scat x (pt ^~ k) W (row k mu)).
  rewrite /count /scat mulr_suml -sumrB mulr_sumr. apply: eq_bigr => i _. rewrite /log_gauss -/c.
  have Q : forall p h l e f : F, p * (h * (l - e - f)) = h * (p * (l - e) - p * f) by fr. exact: Q.
rewrite /log_prior /pen /prior_dof. case: (pr) => [q|]; last first.
  have Q : forall w h n l e s : F, w * (h * (n * (l - e) - s) + 0) = h * (w * (n + 0) * l - w * n * e - w * (s + 0)) by fr.
  rewrite mul0r. exact: Q.
case: um.
  have Q : forall w h n l e s b f v t : F, w * (h * (n * (l - e) - s) + (- (h * b * f) + h * v * (l - t))) = h * (w * (n + v) * l - w * n * e - w * (s + (b * f + v * t))) by fr.
  exact: Q.
have Q : forall w h n l e s v t : F, w * (h * (n * (l - e) - s) + (0 + h * v * (l - t))) = h * (w * (n + v) * l - w * n * e - w * (s + (0 + v * t))) by fr.
exact: Q.
Qed.
Lemma first_mom_ok n K d (x : 'M[F]_(n, d)) (pt : 'M[F]_(n, K)) k : first_mom x (pt ^~ k) = row k (pt^T *m x).
Proof. apply/rowP => j. rewrite /first_mom summxE !mxE. apply: eq_bigr => i _. by rewrite !mxE. Qed.
Lemma fit_mu_ok n K d (cf : config) (o : gbe F K d) pr (x : 'M[F]_(n, d)) (pt : 'M[F]_(n, K)) xbar mu beta : prior_ok pr -> (forall k, 0 < count pt k) ->
  fit_mu cf o pr (counts pt) (pt^T *m x) = (Some xbar, Some mu, beta) -> forall W, posdef W -> forall k,
  pen (update_mu cf) pr x pt (row k mu) W k = spread (update_mu cf) pr x pt xbar W k /\
  (update_mu cf -> forall m, pen (update_mu cf) pr x pt (row k mu) W k <= pen (update_mu cf) pr x pt m W k).
Proof.
rewrite /fit_mu => PO CP. case: (update_mu cf); last first.
  move=> [E1 E2 _] W D k. move: E2. rewrite E1 => -[<-]. by split.
move=> E W D k. have NK : count pt k != 0 by rewrite gt_eqF.
have FX : forall xb : 'M[F]_(K, d), xb = \matrix_(k, j) ((pt^T *m x) k j / (counts pt) 0 k) -> first_mom x (pt ^~ k) = count pt k *: row k xb.
  move=> xb ->. rewrite first_mom_ok. apply/rowP => j. rewrite mxE [RHS]mxE [row _ _ _ _]mxE [X in _ * X]mxE [(counts pt) 0 k]mxE mulrC mulfVK //.
have GE : forall v, 0 <= form W v v by exact: (posdef_semi D).2.
case: pr PO E => [q [PW [PB PN]] [XB MU _]|_ [XB MU _]].
- set b := p_beta q 0 k. set z := row k (p_mu q). set N := count pt k.
  have PNB : 0 < N + b by apply: ltr_paddr; [exact: PB|exact: CP]. have NB : N + b != 0 by rewrite gt_eqF.
  have MK : row k mu = (1 - N / (N + b)) *: z + (N / (N + b)) *: row k xbar.
    rewrite -MU -XB. apply/rowP => j. by rewrite !mxE.
  have AL : 1 - N / (N + b) = b / (N + b) by rewrite -[X in X - _](mulfV NB) -mulrBl addrAC subrr add0r.
  have H1 : b *: z + first_mom x (pt ^~ k) = (\sum_i pt i k + b) *: row k mu.
    rewrite (FX _ (esym XB)) MK AL scalerDr !scalerA -/(count pt k) -/N. congr (_ *: _ + _ *: _); by rewrite mulrC mulfVK.
  rewrite /pen /spread. split; last first.
    move=> _ m. rewrite !addrA ler_add2r (scat_shift D.1 m H1) ler_addl mulr_ge0 // ltW //.
  rewrite !addrA. congr (_ + _). rewrite -/N -/b -/z. have := scat_shift D.1 (row k xbar) H1. rewrite -/(count pt k) -/N.
  have -> : row k xbar - row k mu = (b / (N + b)) *: (row k xbar - z).
    rewrite MK -AL. apply/rowP => j. rewrite !mxE. have Q : forall a xx zz : F, xx - ((1 - a) * zz + a * xx) = (1 - a) * (xx - zz) by fr. exact: Q.
  rewrite formZl formZr. set f := form W (row k xbar - z) _. set g := form W (row k mu - z) _. set t := scat _ _ _ _. set s := scat _ _ _ _. move=> ET.
  have -> : s + b * g = t + b * f - (N + b) * (b / (N + b) * (b / (N + b) * f)) by rewrite ET addrK.
  rewrite AL. have E1 : (N + b) * (b / (N + b) * (b / (N + b) * f)) = b / (N + b) * (b * f).
    have Q : forall y b u f : F, y * (b * u * (b * u * f)) = y * u * (b * u * (b * f)) by fr. by rewrite Q mulfV // mul1r.
  rewrite E1. have E2 : b * f = (N + b) * (b / (N + b) * f).
    have Q : forall y b u f : F, y * (b * u * f) = y * u * (b * f) by fr. by rewrite Q mulfV // mul1r.
  rewrite [X in t + X - _]E2. have Q : forall t n b v f : F, t + (n + b) * (v * f) - v * (b * f) = t + n * v * f by fr. exact: Q.
- have MX : mu = xbar by rewrite -XB -MU. have MK := FX _ (esym XB). rewrite MX /pen /spread !addr0. split=> // _ m. rewrite addr0.
  have H1 : 0 *: m + first_mom x (pt ^~ k) = (\sum_i pt i k + 0) *: row k xbar by rewrite scale0r add0r addr0 MK.
  have := scat_shift D.1 m H1. rewrite !mul0r !addr0 => ->. rewrite ler_addl mulr_ge0 // ltW //. exact: CP.
Qed.
Lemma weight_ge0 n K d bal (pr : option (prior F K d)) (pt : 'M[F]_(n, K)) k : prior_ok pr -> (forall k, 0 < count pt k) -> 0 <= class_weight bal pr pt k.
Proof.
move=> PO CP. rewrite /class_weight. case: bal; last exact: ler01. rewrite invr_ge0 addr_ge0 //; first exact: ltW. apply: divr_ge0; last exact: ler0n.
by case: pr PO => [q [_ []]|].
Qed.
Lemma mass_pos n K d bal (pr : option (prior F K.+1 d)) (pt : 'M[F]_(n, K.+1)) : prior_ok pr -> (forall k, 0 < count pt k) -> 0 < mass bal pr pt.
Proof.
move=> PO CP. have DP : 0 <= prior_dof pr by case: pr PO => [q [_ []]|].
have N0 : forall k, count pt k + prior_dof pr / K.+1%:R != 0.
  move=> k. rewrite gt_eqF //. apply: ltr_paddr; [apply: divr_ge0 => //; exact: ler0n|exact: CP].
rewrite mass_ok //. case: bal; first by rewrite ltr0n. apply: ltr_paddl => //. rewrite (bigD1 0) //= mxE ltr_paddr //. apply: sumr_ge0 => k _. by rewrite mxE ltW.
Qed.
(** ** Training *)
Lemma weigh_counts n K (p : 'M[F]_(n, K)) w : (\row_k \sum_i weigh p w i k) = counts (weigh p w). Proof. by []. Qed.
(** fit maximises the objective: over the means if they are updated, over the positive definite matrices if W is *)
Theorem C83_fit : log_ok ln -> forall n K d (cf : config) (o : gbe F K.+1 d) pr (x : 'M[F]_(n, d)) p w o',
  let pr' := if pr is Some q then Some (load_prior q (prior_beta cf) (prior_nu cf)) else None in let pt := weigh p w in
  prior_ok pr' -> (forall k, 0 < count pt k) -> fit cf o pr x p w = ok o' ->
  (~~ update_mu cf -> g_mu o' = g_mu o) /\ (~~ update_W cf -> g_W o' = g_W o) /\ (update_mu cf -> g_mu o' <> None) /\
  (update_W cf -> exists W, g_W o' = Some W /\ posdef W) /\
  forall mu W mu1 W1, g_mu o' = Some mu -> g_W o' = Some W -> posdef W -> posdef W1 -> update_mu cf \/ mu1 = mu -> update_W cf \/ W1 = W ->
    objective (balance cf) (update_mu cf) pr' x pt mu1 W1 <= objective (balance cf) (update_mu cf) pr' x pt mu W.
Proof.
move=> LO n K d cf o pr x p w o' pr' pt PO CP. have LN := LO.1. rewrite /Gbe.fit. lazy zeta. rewrite -/pr' -/pt -/(counts pt).
case EM: (fit_mu cf o pr' (counts pt) (pt^T *m x)) => [[xbar mu] beta].
have MP := mass_pos (balance cf) PO CP. have MN := lt0r_neq0 MP.
have HP : 0 < half by rewrite invr_gt0 ltr0n.
have SH : forall mu0, mu = Some mu0 -> exists xb, xbar = Some xb.
  move: EM. rewrite /fit_mu. case: (update_mu cf); last by move=> [<- <- _] m ->; exists m. case: (pr') => [q|] [<- _ _] m _; by eexists.
have UM : (~~ update_mu cf -> mu = g_mu o) /\ (update_mu cf -> mu <> None).
  move: EM. rewrite /fit_mu. case: (update_mu cf); last by move=> [_ <- _]. case: (pr') => [q|] [_ <- _]; by split.
have PEN : forall mu0 mu1 W1, mu = Some mu0 -> posdef W1 -> update_mu cf \/ mu1 = mu0 ->
  \sum_k class_weight (balance cf) pr' pt k * pen (update_mu cf) pr' x pt (row k mu0) W1 k <= \sum_k class_weight (balance cf) pr' pt k * pen (update_mu cf) pr' x pt (row k mu1) W1 k.
  move=> mu0 mu1 W1 E D A. apply: ler_sum => k _. apply: ler_wpmul2l; first exact: weight_ge0. case: A => [U|-> //].
  have [xb EX] := SH _ E. rewrite E EX in EM. exact: ((fit_mu_ok PO CP EM D k).2 U).
case UW: (update_W cf); last first.
  move=> [<-] /=. split; first exact: UM.1. split=> //. split; first exact: UM.2. split=> // mu0 W mu1 W1 E _ D _ A [//|->].
  rewrite !obj_form ler_pmul2l // ler_sub //. exact: PEN.
case: xbar EM SH => [xb|//] EM SH. have [S [ES [SY TR]]] := fit_S_ok cf x xb LN PO CP. rewrite ES.
case EI: (invert_pdmat ln S false) => [i|]; last by rewrite /Base.bind EI.
rewrite /Base.bind EI. move=> [<-] /=. have [DS [_ [IV _]]] := inv_found LN SY EI. rewrite IV.
split; first exact: UM.1. split=> //. split; first exact: UM.2. split; first by move=> _; exists (invmx S); split=> //; exact: posdef_inv.
move=> mu0 W mu1 W1 E [<-] DW D1 A _. rewrite !obj_form ler_pmul2l //.
have TE : forall W1, posdef W1 -> \sum_k class_weight (balance cf) pr' pt k * pen (update_mu cf) pr' x pt (row k mu0) W1 k = mass (balance cf) pr' pt * \tr (W1 *m S).
  move=> W2 D2. rewrite TR. apply: eq_bigr => k _. congr (_ * _). rewrite E in EM. exact: (fit_mu_ok PO CP EM D2 k).1.
rewrite (TE _ DW) mulVmx ?posdef_unit // mxtrace1. have P1 := PEN _ _ _ E D1 A. rewrite (TE _ D1) in P1.
have ML := ml_lemma LO D1 DS.
apply: (@le_trans _ _ (mass (balance cf) pr' pt * ln (\det W1) - (\sum_k class_weight (balance cf) pr' pt k * count pt k) * (d%:R * ln (2%:R * pi)) - mass (balance cf) pr' pt * \tr (W1 *m S))).
  by rewrite ler_add2l ler_opp2.
have Q : forall m a b e : F, m * a - b - m * e = m * (a - e) - b by fr. rewrite !Q ler_add2r. apply: ler_wpmul2l => //. exact: ltW.
Qed.

(** the updated parameters in closed form *)
Theorem C83_estimates : forall n K d (cf : config) (o : gbe F K d) pr (x : 'M[F]_(n, d)) p w o',
  let pr' := if pr is Some q then Some (load_prior q (prior_beta cf) (prior_nu cf)) else None in let pt := weigh p w in
  (forall k, 0 < count pt k) -> prior_ok pr' -> fit cf o pr x p w = ok o' ->
  (update_mu cf -> exists mu beta, g_mu o' = Some mu /\ g_beta o' = Some beta /\ forall k,
    let b := if pr' is Some q then p_beta q 0 k else 0 in
    (count pt k + b) *: row k mu = \sum_i pt i k *: row i x + (if pr' is Some q then b *: row k (p_mu q) else 0) /\
    beta 0 k = if post_beta cf is Some v then v else count pt k + b) /\
  (update_W cf -> g_nu o' = Some (if post_nu cf is Some v then K%:R * v else \sum_k count pt k + prior_dof pr')).
Proof.
move=> n K d cf o pr x p w o' pr' pt CP PO. rewrite /Gbe.fit. lazy zeta. rewrite -/pr' -/pt -/(counts pt).
case EM: (fit_mu cf o pr' (counts pt) (pt^T *m x)) => [[xbar mu] beta].
set R := if update_W cf then _ else _. case ER: R => [[W nu]|//] [<-] /=.
have FX : forall k, row k (pt^T *m x) = \sum_i pt i k *: row i x by move=> k; rewrite -first_mom_ok.
split.
- move=> U. move: EM. rewrite /fit_mu U. case: pr' PO {R ER} => [q [_ [PB _]]|_] [_ <- <-].
  + eexists. exists (if post_beta cf is Some v then const_mx v else counts pt + p_beta q). split; first by []. split; first by case: (post_beta cf) => [v|].
    move=> k /=. split; last by case: (post_beta cf) => [v|]; rewrite !mxE.
    have NB : count pt k + p_beta q 0 k != 0 by rewrite gt_eqF // ltr_paddr. have NK : count pt k != 0 by rewrite gt_eqF.
    rewrite -FX. apply/rowP => j. rewrite [LHS]mxE [row _ _ _ _]mxE [X in _ * X]mxE [RHS]mxE [row _ (pt^T *m x) _ _]mxE [X in _ = _ + X]mxE [row _ (p_mu q) _ _]mxE.
    rewrite [(\matrix_(_, _) (_ / _)) k j]mxE [(counts pt) 0 k]mxE. move: NB NK. set N := count pt k. set b := p_beta q 0 k. set z := p_mu q k j. set f := (pt^T *m x) k j. move=> NB NK.
    have E1 : (N + b) * (N / (N + b)) = N by rewrite mulrC mulfVK.
    have Q : forall y a z f : F, y * ((1 - a) * z + a * f) = y * z - (y * a) * z + (y * a) * f by fr. rewrite Q E1.
    have E2 : N * (f / N) = f by rewrite mulrC mulfVK. rewrite E2. have Q2 : forall n b z f : F, (n + b) * z - n * z + f = f + b * z by fr. exact: Q2.
  + eexists. exists (if post_beta cf is Some v then const_mx v else counts pt). split; first by []. split; first by case: (post_beta cf) => [v|].
    move=> k /=. split; last by case: (post_beta cf) => [v|]; rewrite !mxE ?addr0.
    have NK : count pt k != 0 by rewrite gt_eqF. rewrite !addr0 -FX. apply/rowP => j.
    rewrite [LHS]mxE [row _ _ _ _]mxE [X in _ * X]mxE [(counts pt) 0 k]mxE mulrC mulfVK // [RHS]mxE. by [].
- move=> U. move: ER. rewrite /R U. case: xbar {EM R} => [xb|//]. rewrite /fit_S. set S1 := (if pr' is Some _ then _ else _). case: S1 => [S0|//].
  rewrite /Base.bind. case: (invert_pdmat _ _ _) => [i|//] [_ <-]. case: (post_nu cf) => //. congr Some. rewrite /prior_dof. congr (_ + _). apply: eq_bigr => k _. by rewrite mxE.
Qed.
(** fit with a prior of positive weight never fails; without one it fails if and only if the data have no spread within the classes in some
    direction *)
Lemma spread_sq n K d um (pr : option (prior F K d)) (x : 'M[F]_(n, d)) (pt : 'M[F]_(n, K)) xbar v k :
  spread um pr x pt xbar (v^T *m v) k = \sum_i pt i k * dot (row i x - row k xbar) v ^+ 2 +
  (if pr is Some p then
     (if um then count pt k * (1 - count pt k / (count pt k + p_beta p 0 k)) * dot (row k xbar - row k (p_mu p)) v ^+ 2 else 0)
     + p_nu p / K%:R * form (invmx (p_W p)) v v else 0).
Proof.
have E : forall u : 'rV[F]_d, form (v^T *m v) u u = dot u v ^+ 2.
  move=> u. rewrite /form mulmxA -mulmxA mxE big_ord1 -/(dot u v) -/(dot v u) (dotC v u) expr2. by [].
rewrite /spread /scat. congr (_ + _); first by apply: eq_bigr => i _; rewrite E. case: (pr) => [q|] //. congr (_ + _ * _); first by case: um; rewrite // E.
by rewrite -mulmxA mxtrace_mulC /form /mxtrace big_ord1.
Qed.
Definition class_means {n K d} (um : bool) (o : gbe F K d) (x : 'M[F]_(n, d)) (pt : 'M[F]_(n, K)) : option 'M[F]_(K, d) :=
  if um then Some (\matrix_k ((count pt k)^-1 *: \sum_i pt i k *: row i x)) else g_mu o.
Theorem C83_fit_succeeds : is_log ln -> forall n K d (cf : config) (o : gbe F K.+1 d) pr (x : 'M[F]_(n, d)) p w m,
  let pr' := if pr is Some q then Some (load_prior q (prior_beta cf) (prior_nu cf)) else None in let pt := weigh p w in
  prior_ok pr' -> (forall k, 0 < count pt k) -> (forall i k, 0 <= pt i k) -> class_means (update_mu cf) o x pt = Some m -> update_W cf ->
  (0 < prior_dof pr' -> exists o', fit cf o pr x p w = ok o') /\
  (pr = None -> ((exists o', fit cf o pr x p w = ok o') <-> forall v : 'rV[F]_d, v != 0 -> exists i k, pt i k != 0 /\ dot (row i x - row k m) v != 0)).
Proof.
move=> LN n K d cf o pr x p w m pr' pt PO CP PP CM UW. rewrite /Gbe.fit. lazy zeta. rewrite -/pr' -/pt -/(counts pt).
case EM: (fit_mu cf o pr' (counts pt) (pt^T *m x)) => [[xbar mu] beta].
have EX : xbar = Some m.
  move: EM CM. rewrite /fit_mu /class_means. case: (update_mu cf); last by move=> [<- _ _].
  have -> : (\matrix_(k, j) ((pt^T *m x) k j / (counts pt) 0 k)) = \matrix_k ((count pt k)^-1 *: \sum_i pt i k *: row i x).
    apply/row_matrixP => k. rewrite rowK. have -> : \sum_i pt i k *: row i x = row k (pt^T *m x) by rewrite -first_mom_ok.
    apply/rowP => j. by rewrite [LHS]mxE [LHS]mxE [RHS]mxE [row _ (pt^T *m x) _ _]mxE [(counts pt) 0 k]mxE mulrC.
  by case: (pr') => [q|] [<- _ _].
rewrite EX UW. have [S [ES [SY TR]]] := fit_S_ok cf x m LN PO CP. rewrite ES.
have MP := mass_pos (balance cf) PO CP.
have FS : forall v, mass (balance cf) pr' pt * form S v v = \sum_k class_weight (balance cf) pr' pt k * spread (update_mu cf) pr' x pt m (v^T *m v) k.
  move=> v. rewrite -TR. congr (_ * _). by rewrite -mulmxA mxtrace_mulC /form /mxtrace big_ord1.
have W0 : forall k, 0 <= class_weight (balance cf) pr' pt k by move=> k; exact: weight_ge0.
have WP : forall k, 0 < class_weight (balance cf) pr' pt k.
  move=> k. rewrite lt0r W0 andbT /class_weight. case: (balance cf); last exact: oner_neq0. rewrite invr_eq0 gt_eqF // ltr_paddr //.
  apply: divr_ge0; last exact: ler0n. by case: (pr') PO => [q [_ []]|].
have DATA : forall v k, 0 <= \sum_i pt i k * dot (row i x - row k m) v ^+ 2 by move=> v k; apply: sumr_ge0 => i _; apply: mulr_ge0 => //; exact: sqr_ge0.
have POS : posdef S -> exists o', (let! r := (let! r := ok (S, prior_dof pr') in let! i := invert_pdmat ln r.1 false in ok (Some (p_inv i), Some (\sum_k (counts pt) 0 k + r.2))) in let: (W, nu) := r in
  ok (Obj mu W (compute_Ab mu W (g_Ab o)) (if post_beta cf is Some b then Some (const_mx b) else beta) (if post_nu cf is Some v then Some (K.+1%:R * v) else nu))) = ok o'.
  move=> D. have [i [E _]] := (C73_invert_pdmat LN false D.1).2 D. rewrite /Base.bind /= E. by eexists.
split.
- move=> NP. apply: POS. split=> // v V. rewrite -(pmulr_rgt0 _ MP) FS. rewrite (bigD1 0) //=. apply: ltr_spaddl.
  + apply: mulr_gt0; first exact: WP. rewrite spread_sq. apply: ltr_paddl; first exact: DATA. move: PO NP. rewrite /prior_dof. case: (pr') => [q [D [PB PN]] NP|]; last by rewrite ltxx.
    apply: ltr_paddl; last by apply: mulr_gt0; [rewrite divr_gt0 // ltr0n|exact: ((posdef_inv D).2 _ V)].
    case: (update_mu cf) => //. apply: mulr_ge0; last exact: sqr_ge0. apply: mulr_ge0; first exact: ltW. rewrite subr_ge0 ler_pdivr_mulr ?mul1r ?ler_addl // ltr_paddr //.
  + apply: sumr_ge0 => k _. apply: mulr_ge0; first exact: W0. rewrite spread_sq. apply: addr_ge0; first exact: DATA. move: PO. case: (pr') => [q [D [PB PN]]|//].
    apply: addr_ge0; last by apply: mulr_ge0; [apply: divr_ge0 => //; exact: ler0n|exact: ((posdef_semi (posdef_inv D)).2 v)].
    case: (update_mu cf) => //. apply: mulr_ge0; last exact: sqr_ge0. apply: mulr_ge0; first exact: ltW. rewrite subr_ge0 ler_pdivr_mulr ?mul1r ?ler_addl // ltr_paddr //.
- move=> PN. have PN' : pr' = None by rewrite /pr' PN.
  have FV : forall v, mass (balance cf) pr' pt * form S v v = \sum_k class_weight (balance cf) pr' pt k * \sum_i pt i k * dot (row i x - row k m) v ^+ 2.
    move=> v. rewrite FS. apply: eq_bigr => k _. by rewrite spread_sq PN' addr0.
  split=> [OK v V|H].
  + have D : posdef S by case: OK => o'; rewrite /Base.bind /=; case E: (invert_pdmat ln S false) => [i|//] _; exact: (inv_found LN SY E).1.
    have := D.2 v V. rewrite -(pmulr_rgt0 _ MP) FV => GT.
    case: (pickP (fun ik : 'I_n * 'I_K.+1 => (pt ik.1 ik.2 != 0) && (dot (row ik.1 x - row ik.2 m) v != 0))) => [[i k] /andP [A B]|NO]; first by exists i, k.
    move: GT. rewrite big1 ?ltxx // => k _. rewrite big1 ?mulr0 // => i _. have := NO (i, k). rewrite /= => /negbT. rewrite negb_and !negbK => /orP [/eqP ->|/eqP ->]; by rewrite ?mul0r // expr0n mulr0.
  + apply: POS. split=> // v V. rewrite -(pmulr_rgt0 _ MP) FV. have [i [k [A B]]] := H v V. rewrite (bigD1 k) //=. apply: ltr_spaddl.
      apply: mulr_gt0 => //. rewrite (bigD1 i) //=. apply: ltr_spaddl; first by apply: mulr_gt0; [rewrite lt0r A PP|rewrite lt0r sqrf_eq0 B sqr_ge0].
      apply: sumr_ge0 => j _. apply: mulr_ge0 => //. exact: sqr_ge0.
    apply: sumr_ge0 => j _. exact: mulr_ge0.
Qed.

(** prior_beta and prior_nu: the prior counts as b observations of its mean in every class, and as v observations per class for the covariance *)
Theorem C83_prior_strength : forall n K d (cf : config) (o : gbe F K d) q (x : 'M[F]_(n, d)) p w o' b v, let pt := weigh p w in
  prior_beta cf = Some b -> prior_nu cf = Some v -> post_beta cf = None -> post_nu cf = None -> update_mu cf -> update_W cf ->
  (forall k, 0 < count pt k) -> prior_ok (Some (Prior (p_mu q) (p_W q) (const_mx b) (K%:R * v))) -> fit cf o (Some q) x p w = ok o' ->
  g_nu o' = Some (\sum_k count pt k + K%:R * v) /\ exists mu beta, g_mu o' = Some mu /\ g_beta o' = Some beta /\ forall k,
    (count pt k + b) *: row k mu = \sum_i pt i k *: row i x + b *: row k (p_mu q) /\ beta 0 k = count pt k + b.
Proof.
move=> n K d cf o q x p w o' b v pt PB PN QB QN UM UW CP PO FT. have [H1 H2] := @C83_estimates n K d cf o (Some q) x p w o' CP ltac:(by rewrite PB PN) FT.
move: (H2 UW). rewrite PB PN QN /= => ->. split=> //. have [mu [beta [E1 [E2 H]]]] := H1 UM. exists mu, beta. split=> //. split=> // k. move: (H k). by rewrite PB QB /= mxE.
Qed.
(** class labels: the same as the indicators of the classes, if every label is a class; IndexError otherwise *)
Theorem C83_class_ids : forall n K d (cf : config) (o : gbe F K d) pr (x : 'M[F]_(n, d)) (ids : 'I_n -> nat) w,
  ((forall i, (ids i < K)%N) -> fit_ids ln cf o pr x ids w = fit cf o pr x (\matrix_(i, k) (ids i == k)%:R) w) /\
  ((exists i, (K <= ids i)%N) -> fit_ids ln cf o pr x ids w = err index_error).
Proof.
move=> n K d cf o pr x ids w. rewrite /fit_ids /int2onehot. split=> [H|[i H]].
  by have -> : [forall i, ids i < K]%N by apply/forallP.
have -> : [forall i, ids i < K]%N = false by apply/negbTE/forallP => /(_ i); rewrite ltnNge H. by [].
Qed.

(** a case: two classes of two numbers each, 0 and 2, 10 and 12, balanced, with no prior *)
Definition x4 : 'M[F]_(4, 1) := \matrix_(i, j) ((i %% 2) * 2 + (i %/ 2) * 10)%:R.
Definition cf1 : config := Config true true true None None None None.
Example fit_case : is_log ln -> exists o', fit_ids ln cf1 (make None None None None : gbe F 2 1) None x4 (fun i => i %/ 2)%N None = ok o'.
Proof.
move=> LN. have HI : forall i : 'I_4, (i %/ 2 < 2)%N by case=> -[|[|[|[|i]]]].
have [EI _] := @C83_class_ids 4 2 1 cf1 (make None None None None) None x4 (fun i => i %/ 2)%N None. rewrite (EI HI).
  set p := \matrix_(i, k) _. have CP : forall k : 'I_2, count (weigh p None) k = 2%:R.
    move=> k. rewrite /count /= !big_ord_recl big_ord0 /p !mxE. case: k => -[|[|k]] // H; by rewrite /= ?add0r ?addr0.
  have [//||i k|//|//|_ H] := @C83_fit_succeeds LN 4 1 1 cf1 (make None None None None) None x4 p None (\matrix_k ((count (weigh p None) k)^-1 *: \sum_i p i k *: row i x4)).
  - move=> k. by rewrite CP ltr0n.
  - by rewrite /= mxE ler0n.
  - apply/(H erefl) => v V. exists 0, 0. rewrite /= mxE /=. split; first exact: oner_neq0. rewrite /dot mxE big_ord1 !mxE /= CP.
    have V0 : v 0 0 != 0 by apply: contraNneq V => E; apply/eqP/matrixP => i j; rewrite !ord1 E mxE.
    rewrite !big_ord_recl big_ord0 /p !mxE /= mulf_neq0 //. 
    have -> : (0 - 2%:R^-1 * (1 * 0 + (1 * 2%:R + (0 * 10%:R + (0 * 12%:R + 0))))) = -1 :> F by have T := @two_neq0 F; rewrite !mulr0 !mul0r !addr0 mul1r !add0r mulVf.
    by rewrite oppr_eq0 oner_neq0.
Qed.
End P.
Print Assumptions C83_fit. Print Assumptions C83_fit_succeeds. Print Assumptions C83_predictive_refuted. Print Assumptions C83_posterior.
(** the real exponential and logarithm satisfy the hypotheses *)
From Coq Require Import Reals.
From Verif Require Import RInst.
Example real_exp_ok : exp_ok (Rpower.ln : R_rcfType -> R_rcfType) (Rtrigo_def.exp : R_rcfType -> R_rcfType).
Proof.
split; first exact: exp_plus. split; first by move=> a; apply/RltbP; exact: exp_pos. move=> t /RltbP H. exact: exp_ln.
Qed.
