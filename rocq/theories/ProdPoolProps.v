(** Properties of the product pooling layers with diagonal covariances (C105). *)
From Coq Require Import ZArith List Bool Reals Lra Lia Permutation.
From Verif Require Import Base MathFns ScoreNorm ScoreNormProps.
From Verif Require Import ProdPool.
Import ListNotations.
Open Scope list_scope. Open Scope R_scope.

(** *** Specification *)
(** the logarithm of the density of the normal distribution with mean [m] and variance [v] *)
Definition lnorm (m v z : R) : R := - (ln (2 * PI * v) + (z - m) * (z - m) / v) / 2.
(** the same function up to the normalisation of the density *)
Definition shaped_like (f g : R -> R) : Prop := exists c, forall z, f z = g z + c.
(** the layer gives the mean and the log-variance of the normal distribution whose density is proportional to exp(target) *)
Definition posterior (out : option R * option R) (target : R -> R) : Prop :=
  exists mu lv, out = (Some mu, Some lv) /\ shaped_like (lnorm mu (exp lv)) target.
Definition product (l : list frame) (g : frame -> R -> R) (z : R) : R := Rsum (map (fun f => fw f * g f z) l).
(** a Gaussian factor exp(x z - p z^2 / 2): precision p, natural mean x *)
Definition factor (x p z : R) : R := x * z - p / 2 * (z * z).

(** *** Proofs *)
Lemma Rsum_nil : Rsum [] = 0.
Proof. reflexivity. Qed.
Lemma Rsum_cons a l : Rsum (a :: l) = a + Rsum l.
Proof. reflexivity. Qed.
Lemma lnorm_quad G P z : 0 < P -> lnorm (G / P) (/ P) z = factor G P z + (- ln (2 * PI * / P) / 2 - G * G / (2 * P)).
Proof. intros H. unfold lnorm, factor. field. lra. Qed.
Lemma factor_norm G P : 0 < P -> shaped_like (lnorm (G / P) (/ P)) (factor G P).
Proof. intros H. eexists. intros z. apply lnorm_quad. exact H. Qed.
(** a mean and a variance are determined by the density up to its normalisation *)
Theorem C105_unique m v m' v' : 0 < v -> 0 < v' -> shaped_like (lnorm m v) (lnorm m' v') -> m = m' /\ v = v'.
Proof.
  intros V V' [c H].
  assert (Q : forall a b, 0 < b -> lnorm a b 1 + lnorm a b (-1) - 2 * lnorm a b 0 = - / b /\ lnorm a b 1 - lnorm a b (-1) = 2 * a * / b).
  { intros a b B. unfold lnorm. split; field; lra. }
  destruct (Q m v V) as [A1 A2], (Q m' v' V') as [B1 B2]. pose proof (H 1) as H1. pose proof (H (-1)) as H2. pose proof (H 0) as H0.
  assert (E : / v = / v') by lra. assert (v = v') by (apply (f_equal Rinv) in E; rewrite !Rinv_inv in E; exact E). subst v'.
  split; [|reflexivity]. assert (2 * m * / v = 2 * m' * / v) by lra. assert (0 < / v) by (apply Rinv_0_lt_compat; exact V). nra.
Qed.
Lemma sum_factor l (p : frame -> R) z :
  Rsum (map (fun f => fw f * factor (fx f) (p f) z) l) = factor (gamma_of l) (Rsum (map (fun f => p f * fw f) l)) z.
Proof. unfold gamma_of, factor. induction l as [|f l IH]; cbn [map]; rewrite ?Rsum_nil, ?Rsum_cons; [field|]. rewrite IH. field. Qed.
Lemma sum_split l (g h : frame -> R -> R) (k : frame -> R) z : (forall f z, g f z = h f z + k f) ->
  Rsum (map (fun f => fw f * g f z) l) = Rsum (map (fun f => fw f * h f z) l) + Rsum (map (fun f => fw f * k f) l).
Proof. intros H. induction l as [|f l IH]; cbn [map]; rewrite ?Rsum_nil, ?Rsum_cons; [lra|]. rewrite IH, H. lra. Qed.
Lemma shaped_trans f g h : shaped_like f g -> shaped_like g h -> shaped_like f h.
Proof. intros [a A] [b B]. exists (b + a). intros z. rewrite A, B. lra. Qed.
Lemma shaped_sym f g : shaped_like f g -> shaped_like g f.
Proof. intros [a A]. exists (- a). intros z. rewrite A. lra. Qed.
Lemma exp_neg_ln P : 0 < P -> exp (- ln P) = / P.
Proof. intros H. rewrite exp_Ropp, exp_ln by exact H. reflexivity. Qed.
Lemma finish_div_ok G P : 0 < P -> posterior (finish_div G P) (factor G P).
Proof.
  intros H. unfold finish_div, odiv, klog. destruct (Req_EM_T P 0); [lra|]. destruct (Rlt_dec 0 P); [|lra].
  exists (G / P), (- ln P). split; [reflexivity|]. rewrite exp_neg_ln by exact H. apply factor_norm. exact H.
Qed.
Lemma finish_exp_ok G P : 0 < P -> posterior (finish_exp G P) (factor G P).
Proof.
  intros H. unfold finish_exp, klog. destruct (Rlt_dec 0 P); [|lra]. cbn [option_map].
  exists (G * exp (- ln P)), (- ln P). split; [reflexivity|]. rewrite exp_neg_ln by exact H. apply factor_norm. exact H.
Qed.
Lemma post_weaken out f g : posterior out f -> shaped_like f g -> posterior out g.
Proof. intros [m [v [E S]]] H. exists m, v. split; [exact E|]. eapply shaped_trans; eauto. Qed.
Lemma std_quad z : lnorm 0 1 z = factor 0 1 z + (- ln (2 * PI) / 2).
Proof. unfold lnorm, factor. rewrite Rmult_1_r. lra. Qed.
Lemma Rsum_ge0 {A} (g : A -> R) l : Forall (fun x => 0 <= g x) l -> 0 <= Rsum (map g l).
Proof. induction 1; cbn [map]; rewrite ?Rsum_nil, ?Rsum_cons; lra. Qed.

(** C105 StdPrior: the inputs are the natural means and the log-variances of Gaussian likelihoods; the result is the posterior
    of a standard normal prior after all of them, each to the power of its weight. *)
Theorem C105_std_prior l : Forall (fun f => 0 <= fw f) l ->
  posterior (std_prior l) (fun z => lnorm 0 1 z + product l (fun f => lnorm (fx f * exp (fy f)) (exp (fy f))) z).
Proof.
  intros W. unfold std_prior.
  assert (N : 0 <= Rsum (map (fun f => exp (- fy f) * fw f) l)).
  { apply Rsum_ge0. eapply Forall_impl; [|exact W]. intros f F. cbv beta in *. pose proof (exp_pos (- fy f)). nra. }
  unfold relu. rewrite Rmax_left by lra. eapply post_weaken; [apply finish_div_ok; lra|].
  apply shaped_sym. exists (- ln (2 * PI) / 2 + Rsum (map (fun f => fw f * (- ln (2 * PI * / exp (- fy f)) / 2 - fx f * fx f / (2 * exp (- fy f)))) l)). intros z. unfold product.
  rewrite (sum_split l (fun f => lnorm (fx f * exp (fy f)) (exp (fy f))) (fun f => factor (fx f) (exp (- fy f))) (fun f => - ln (2 * PI * / exp (- fy f)) / 2 - fx f * fx f / (2 * exp (- fy f))) z).
  2: { intros f z0. rewrite <- lnorm_quad by apply exp_pos. rewrite exp_Ropp, Rinv_inv. unfold Rdiv. rewrite Rinv_inv. reflexivity. }
  rewrite sum_factor, std_quad. unfold factor. set (T := Rsum (map (fun f => fw f * _) l)). set (V := Rsum _). lra.
Qed.
Print Assumptions C105_std_prior.

Lemma count_scale l k : count_of l * k = Rsum (map (fun f => k * fw f) l).
Proof. unfold count_of. induction l as [|f l IH]; cbn [map]; rewrite ?Rsum_nil, ?Rsum_cons; [lra|]. rewrite <- IH. lra. Qed.
(** the posterior to prior ratios, frame by frame *)
Lemma ratio_gen l (p : frame -> R) : (forall f, In f l -> 0 < p f) ->
  shaped_like (fun z => lnorm 0 1 z + product l (fun f z => lnorm (fx f / p f) (/ p f) z - lnorm 0 1 z) z)
    (factor (gamma_of l) (1 + Rsum (map (fun f => (p f - 1) * fw f) l))).
Proof.
  intros P. unfold product, gamma_of. induction l as [|f l H'].
  - exists (- ln (2 * PI) / 2). intros z. cbn [map]; rewrite ?Rsum_nil, ?Rsum_cons. rewrite std_quad. unfold factor. lra.
  - assert (PP : forall x, In x l -> 0 < p x) by (intros x Ix; apply P; right; exact Ix).
    specialize (H' PP). destruct H' as [c H].
    exists (c + fw f * (- ln (2 * PI * / p f) / 2 - fx f * fx f / (2 * p f) - - ln (2 * PI) / 2)). intros z. cbn [map]; rewrite ?Rsum_nil, ?Rsum_cons. specialize (H z).
    rewrite lnorm_quad by (apply P; left; reflexivity). rewrite (std_quad z) at 2.
    set (Q := Rsum (map (fun f0 => fw f0 * (lnorm _ _ z - lnorm 0 1 z)) l)) in *.
    replace (lnorm 0 1 z + (fw f * (factor (fx f) (p f) z + (- ln (2 * PI * / p f) / 2 - fx f * fx f / (2 * p f)) - (factor 0 1 z + - ln (2 * PI) / 2)) + Q))
      with ((lnorm 0 1 z + Q) + fw f * (factor (fx f) (p f) z - factor 0 1 z) + fw f * (- ln (2 * PI * / p f) / 2 - fx f * fx f / (2 * p f) - - ln (2 * PI) / 2)) by lra.
    rewrite H. unfold factor. set (X := Rsum (map (fun f0 => fx f0 * fw f0) l)). set (Y := Rsum (map (fun f0 => (p f0 - 1) * fw f0) l)). lra.
Qed.

(** C105 StdPrior2: each frame gives a posterior (natural mean x, precision (1 + e^y)/(1 + b e^y), so a variance between b and
    1) for a standard normal prior; the result is the posterior after the evidence of all the frames, each to the power of its
    weight. *)
Definition bounded_prec (b y : R) : R := (1 + exp y) / (1 + b * exp y).
Lemma prec_form b y : 0 < b < 1 -> (1 - b) / (b + exp (- y)) = bounded_prec b y - 1.
Proof. intros B. unfold bounded_prec. rewrite exp_Ropp. pose proof (exp_pos y). assert (0 < b * exp y) by nra. field. repeat split; nra. Qed.
Lemma prec_bound b y : 0 < b < 1 -> b < / bounded_prec b y < 1.
Proof.
  intros B. unfold bounded_prec. pose proof (exp_pos y) as E. assert (0 < b * exp y) by nra. unfold Rdiv. rewrite Rinv_mult, Rinv_inv.
  split; [apply (Rmult_lt_reg_r (1 + exp y)); [lra|]|apply (Rmult_lt_reg_r (1 + exp y)); [lra|]].
  - replace (/ (1 + exp y) * (1 + b * exp y) * (1 + exp y)) with (1 + b * exp y) by (field; lra). nra.
  - replace (/ (1 + exp y) * (1 + b * exp y) * (1 + exp y)) with (1 + b * exp y) by (field; lra). nra.
Qed.
Theorem C105_std_prior2 b l : 0 < b < 1 -> Forall (fun f => 0 <= fw f) l ->
  (forall y, b < / bounded_prec b y < 1) /\
  posterior (std_prior2 b l) (fun z => lnorm 0 1 z + product l (fun f z => lnorm (fx f / bounded_prec b (fy f)) (/ bounded_prec b (fy f)) z - lnorm 0 1 z) z).
Proof.
  intros B W. split; [intros; apply prec_bound; exact B|]. unfold std_prior2.
  assert (P : forall y, 0 < bounded_prec b y).
  { intros y. pose proof (prec_bound b y B). rewrite <- (Rinv_inv (bounded_prec b y)). apply Rinv_0_lt_compat. lra. }
  assert (E : map (fun f => (1 - b) / (b + exp (- fy f)) * fw f) l = map (fun f => (bounded_prec b (fy f) - 1) * fw f) l)
    by (apply map_ext; intros f; rewrite prec_form by exact B; reflexivity).
  rewrite E. eapply post_weaken; [apply finish_div_ok|apply shaped_sym, ratio_gen; intros; apply P].
  assert (0 <= Rsum (map (fun f => (bounded_prec b (fy f) - 1) * fw f) l)); [|lra].
  apply Rsum_ge0. eapply Forall_impl; [|exact W]. intros f F. cbv beta in *. rewrite <- prec_form by exact B.
  apply Rmult_le_pos; [|exact F]. apply Rlt_le, Rdiv_lt_0_compat; [lra|]. pose proof (exp_pos (- fy f)). lra.
Qed.
Print Assumptions C105_std_prior2.

(** C105 CommonCov and ConstCov: the same with one log-variance for all the frames, whenever the precision that comes out is
    positive; it is so for all weights when the variance is at most one. *)
Theorem C105_common_cov lv l : 0 < 1 + count_of l * (exp (- lv) - 1) ->
  let target z := lnorm 0 1 z + product l (fun f z => lnorm (fx f * exp lv) (exp lv) z - lnorm 0 1 z) z in
  posterior (common_cov lv l) target /\ posterior (const_cov lv l) target.
Proof.
  intros P target.
  assert (S : shaped_like (factor (gamma_of l) (1 + count_of l * (exp (- lv) - 1))) target).
  { assert (E : count_of l * (exp (- lv) - 1) = Rsum (map (fun f => (exp (- lv) - 1) * fw f) l)).
    { apply count_scale. }
    rewrite E. pose proof (ratio_gen l (fun _ => exp (- lv)) (fun f _ => exp_pos _)) as R. cbv beta in R. rewrite exp_Ropp, Rinv_inv in R.
    unfold Rdiv in R. rewrite Rinv_inv in R. apply shaped_sym. rewrite exp_Ropp. exact R. }
  split; (eapply post_weaken; [|exact S]); [apply finish_div_ok|apply finish_exp_ok]; exact P.
Qed.
Print Assumptions C105_common_cov.
Corollary C105_common_cov_total lv l : lv <= 0 -> Forall (fun f => 0 <= fw f) l -> 0 < 1 + count_of l * (exp (- lv) - 1).
Proof.
  intros L W. assert (1 <= exp (- lv)) by (rewrite <- exp_0; destruct (Req_dec (- lv) 0) as [E|E]; [rewrite E; lra|apply Rlt_le, exp_increasing; lra]).
  assert (0 <= count_of l) by (apply Rsum_ge0; exact W). nra.
Qed.
Print Assumptions C105_common_cov_total.
(** C105: with a variance above one, as many frames make the result not a number (nothing keeps the trained log-variance at or
    below zero). *)
Theorem C105_common_cov_refuted lv : 0 < lv -> exists n, forall x,
  snd (common_cov lv (repeat (1, x, 0) n)) = None /\ const_cov lv (repeat (1, x, 0) n) = (None, None).
Proof.
  intros L. assert (E : exp (- lv) < 1) by (rewrite <- exp_0; apply exp_increasing; lra).
  destruct (archimed (/ (1 - exp (- lv)))) as [A _]. set (k := up (/ (1 - exp (- lv)))) in *.
  assert (K : (0 <= k)%Z). { apply le_IZR. assert (0 < / (1 - exp (- lv))) by (apply Rinv_0_lt_compat; lra). lra. }
  exists (Z.to_nat k). intros x.
  assert (C : count_of (repeat (1, x, 0) (Z.to_nat k)) = IZR k).
  { rewrite <- (Z2Nat.id k) at 2 by exact K. rewrite <- INR_IZR_INZ. generalize (Z.to_nat k). intros n. unfold count_of. induction n as [|n IH]; [reflexivity|].
    cbn [repeat map]. rewrite Rsum_cons, IH, S_INR. unfold fw. cbn [fst]. lra. }
  assert (N : 1 + IZR k * (exp (- lv) - 1) < 0).
  { apply (Rmult_lt_compat_r (1 - exp (- lv))) in A; [|lra]. rewrite Rinv_l in A by lra. lra. }
  unfold common_cov, const_cov, finish_div, finish_exp, klog. rewrite C. destruct (Rlt_dec 0 (1 + IZR k * (exp (- lv) - 1))); [lra|]. split; reflexivity.
Qed.
Print Assumptions C105_common_cov_refuted.

(** C105 ConstCov2, 3, 4: a trained precision for the likelihoods of all the frames, with a standard prior (2), with a constant
    added to the precision (3) or with a trained prior precision (4). *)
Theorem C105_const_cov2 p l : 0 <= p -> Forall (fun f => 0 <= fw f) l ->
  posterior (const_cov2 p l) (fun z => lnorm 0 1 z + product l (fun f => factor (fx f) p) z).
Proof.
  intros P W. unfold const_cov2, relu. rewrite Rmax_left by exact P. assert (0 <= count_of l) by (apply Rsum_ge0; exact W).
  eapply post_weaken; [apply finish_exp_ok; nra|]. apply shaped_sym. exists (- ln (2 * PI) / 2). intros z. unfold product.
  rewrite sum_factor, std_quad, <- count_scale. unfold factor. lra.
Qed.
Print Assumptions C105_const_cov2.
Theorem C105_const_cov3 p b l : 0 <= count_of l * p + b ->
  posterior (const_cov3 p b l) (fun z => lnorm 0 1 z + product l (fun f => factor (fx f) p) z + factor 0 b z).
Proof.
  intros P. unfold const_cov3, relu. rewrite Rmax_left by lra.
  eapply post_weaken; [apply finish_exp_ok; lra|]. apply shaped_sym. exists (- ln (2 * PI) / 2). intros z. unfold product.
  rewrite sum_factor, std_quad, <- count_scale. unfold factor. lra.
Qed.
Print Assumptions C105_const_cov3.
Theorem C105_const_cov4 p b l : Forall (fun f => 0 <= fw f) l ->
  posterior (const_cov4 p b l) (fun z => lnorm 0 (exp (- b)) z + product l (fun f => lnorm (fx f * exp (- p)) (exp (- p))) z).
Proof.
  intros W. unfold const_cov4. assert (0 <= count_of l) by (apply Rsum_ge0; exact W). pose proof (exp_pos b) as B. pose proof (exp_pos p) as P.
  eapply post_weaken; [apply finish_exp_ok; nra|]. apply shaped_sym.
  exists (- ln (2 * PI * / exp b) / 2 + Rsum (map (fun f => fw f * (- ln (2 * PI * / exp p) / 2 - fx f * fx f / (2 * exp p))) l)). intros z. unfold product.
  rewrite (sum_split l (fun f => lnorm (fx f * exp (- p)) (exp (- p))) (fun f => factor (fx f) (exp p)) (fun f => - ln (2 * PI * / exp p) / 2 - fx f * fx f / (2 * exp p)) z).
  2: { intros f z0. rewrite <- lnorm_quad by exact P. rewrite exp_Ropp. reflexivity. }
  rewrite sum_factor, <- count_scale.
  replace (lnorm 0 (exp (- b)) z) with (factor 0 (exp b) z + - ln (2 * PI * / exp b) / 2).
  2: { rewrite exp_Ropp. replace 0 with (0 / exp b) at 2 by (field; lra). rewrite lnorm_quad by exact B. field. lra. }
  unfold factor. set (T := Rsum _). lra.
Qed.
Print Assumptions C105_const_cov4.

(** C105 StdPrior3: its variance is that of StdPrior2, but its mean is the plain average of the inputs, so that it is not the
    posterior: with one frame of weight one it is the natural mean itself. *)
Theorem C105_std_prior3_refuted b y : 0 < b < 1 -> let l := [(1, 1, y)] in
  snd (std_prior3 b l) = snd (std_prior2 b l) /\
  ~ posterior (std_prior3 b l) (fun z => lnorm 0 1 z + product l (fun f z => lnorm (fx f / bounded_prec b (fy f)) (/ bounded_prec b (fy f)) z - lnorm 0 1 z) z).
Proof.
  intros B l. split; [reflexivity|]. intros P.
  assert (W : Forall (fun f => 0 <= fw f) l) by (repeat constructor; unfold fw; cbn; lra).
  destruct (C105_std_prior2 b l B W) as [_ [mu [lv [E S]]]]. destruct P as [mu' [lv' [E' S']]].
  assert (U : mu = mu' /\ exp lv = exp lv').
  { apply C105_unique; try apply exp_pos. eapply shaped_trans; [exact S|apply shaped_sym; exact S']. }
  destruct U as [U _]. subst mu'.
  unfold std_prior2, std_prior3, finish_div, odiv, l, gamma_of in E, E'. cbn [map fst snd List.length] in E, E'.
  rewrite !Rsum_cons, !Rsum_nil in E, E'. unfold fx, fw, fy in E, E'. cbn [fst snd] in E, E'.
  rewrite prec_form in E by exact B. pose proof (prec_bound b y B) as Q. change (INR 1) with 1 in E'.
  assert (P : 1 < bounded_prec b y).
  { assert (0 < bounded_prec b y) by (rewrite <- (Rinv_inv (bounded_prec b y)); apply Rinv_0_lt_compat; lra).
    apply (Rmult_lt_reg_r (/ bounded_prec b y)); [lra|]. rewrite Rinv_r by lra. lra. }
  destruct (Req_EM_T (1 + ((bounded_prec b y - 1) * 1 + 0)) 0) as [Z|Z]; [lra|]. destruct (Req_EM_T 1 0); [lra|].
  assert (E1 : (1 * 1 + 0) / (1 + ((bounded_prec b y - 1) * 1 + 0)) = mu) by congruence.
  assert (E2 : (1 * 1 + 0) / 1 = mu) by congruence. rewrite <- E2 in E1.
  apply (f_equal (fun t => t * (1 + ((bounded_prec b y - 1) * 1 + 0)))) in E1. field_simplify in E1; lra.
Qed.
Print Assumptions C105_std_prior3_refuted.

(** C105: the order of the frames does not matter and frames of weight zero do not count. *)
Lemma sum_perm (g : frame -> R) l l' : Permutation l l' -> Rsum (map g l) = Rsum (map g l').
Proof. intros P. apply Rsum_perm. apply Permutation_map. exact P. Qed.
Lemma sum_live (g : frame -> R) l : (forall f, fw f = 0 -> g f = 0) -> Rsum (map g (filter (fun f => if Req_EM_T (fw f) 0 then false else true) l)) = Rsum (map g l).
Proof.
  intros H. induction l as [|f l IH]; [reflexivity|]. cbn [filter map]. destruct (Req_EM_T (fw f) 0) as [E|E]; cbn [map]; rewrite ?Rsum_cons, IH; [rewrite (H f E); lra|reflexivity].
Qed.
Definition all_pools (b p bias lv : R) (l : list frame) : list (option R * option R) :=
  [std_prior l; std_prior2 b l; common_cov lv l; const_cov lv l; const_cov2 p l; const_cov3 p bias l; const_cov4 p bias l].
Theorem C105_frames b p bias lv l l' :
  Permutation (filter (fun f => if Req_EM_T (fw f) 0 then false else true) l) (filter (fun f => if Req_EM_T (fw f) 0 then false else true) l') ->
  all_pools b p bias lv l = all_pools b p bias lv l'.
Proof.
  intros P.
  assert (X : forall g : frame -> R, (forall f, fw f = 0 -> g f = 0) -> Rsum (map g l) = Rsum (map g l')).
  { intros g G. rewrite <- (sum_live g l G), <- (sum_live g l' G). apply sum_perm. exact P. }
  unfold all_pools, std_prior, std_prior2, common_cov, const_cov, const_cov2, const_cov3, const_cov4.
  assert (G : gamma_of l = gamma_of l') by (apply X; intros f E; rewrite E; lra).
  assert (C : count_of l = count_of l') by (apply X; auto).
  rewrite G, C, (X (fun f => exp (- fy f) * fw f)), (X (fun f => (1 - b) / (b + exp (- fy f)) * fw f)) by (intros f E; rewrite E; lra).
  reflexivity.
Qed.
Print Assumptions C105_frames.

(** C105: the shapes. With weights of shape (batch, frames, 1) all the layers but CommonCov give (batch, features); with
    weights of shape (batch, frames), that the layers accept, only StdPrior does. *)
Lemma bcast_rev_refl a : bcast_rev a a = Ok a.
Proof. induction a as [|x a IH]; cbn; [reflexivity|]. rewrite IH. cbn. rewrite Nat.eqb_refl. reflexivity. Qed.
Theorem C105_shapes b s d :
  shape_prior [b; s; d]%nat [b; s; d]%nat [b; s]%nat = Ok [b; d]%nat /\ shape_prior [b; s; d]%nat [b; s; d]%nat [b; s; 1]%nat = Ok [b; d]%nat /\
  shape_prior2 [b; s; d]%nat [b; s; d]%nat [b; s; 1]%nat = Ok [b; d]%nat /\ shape_const d [b; s; d]%nat [b; s; 1]%nat = Ok [b; d]%nat.
Proof.
  assert (A : bcast [b; s; d]%nat [b; s; 1]%nat = Ok [b; s; d]%nat).
  { unfold bcast. cbn. rewrite !Nat.eqb_refl. cbn. destruct (Nat.eqb_spec d 1) as [->|]; [reflexivity|]. reflexivity. }
  assert (B : bcast [b; d]%nat [b; d]%nat = Ok [b; d]%nat) by (unfold bcast; rewrite bcast_rev_refl; cbn; reflexivity).
  assert (C : bcast [b; 1]%nat [d]%nat = Ok [b; d]%nat).
  { unfold bcast. cbn. destruct d as [|[|d]]; reflexivity. }
  unfold shape_prior, shape_prior2, shape_const. cbn [List.length Nat.eqb app negb andb Nat.leb].
  rewrite A. cbn [bind sum1]. rewrite B, C. cbn [bind]. rewrite B. repeat split.
Qed.
Print Assumptions C105_shapes.
Theorem C105_weights_refuted b s d r : (2 <= b)%nat -> (2 <= s)%nat -> (2 <= d)%nat ->
  (shape_prior2 [b; s; d]%nat [b; s; d]%nat [b; s]%nat = Ok r \/ shape_const d [b; s; d]%nat [b; s]%nat = Ok r \/
   shape_common [b; s; d]%nat [b; d]%nat [b; s]%nat = Ok r) -> b = s /\ s = d.
Proof.
  intros B S D.
  assert (A : forall r, bcast [b; s; d]%nat [b; s]%nat = Ok r -> b = s /\ s = d).
  { intros r'. unfold bcast. cbn.
    destruct (Nat.eqb_spec s b) as [E|E]; [|destruct (Nat.eqb_spec s 1); [lia|]; destruct (Nat.eqb_spec b 1); [lia|discriminate]]. cbn [bind].
    destruct (Nat.eqb_spec d s) as [F|F]; [lia|]. destruct (Nat.eqb_spec d 1); [lia|]. destruct (Nat.eqb_spec s 1); [lia|discriminate]. }
  unfold shape_prior2, shape_const, shape_common. cbn [List.length Nat.eqb andb negb Nat.leb].
  intros [H|[H|H]]; destruct (bcast [b; s; d]%nat [b; s]%nat) eqn:E; try discriminate; eapply A; reflexivity.
Qed.
Print Assumptions C105_weights_refuted.

Example C105_witness :
  Forall (fun f => 0 <= fw f) [(1, 3, 0); (1/2, 1, 2)] /\ 0 < 95/100 < 1 /\
  std_prior [(1, 3, 0)] = (Some ((3 * 1 + 0) / (1 + 1)), Some (- ln (1 + 1))) /\
  shape_prior2 [4; 7; 5]%nat [4; 7; 5]%nat [4; 7]%nat = Err ValueError /\ shape_prior2 [4; 7; 5]%nat [4; 7; 5]%nat [4; 7; 1]%nat = Ok [4; 5]%nat.
Proof.
  split; [repeat constructor; unfold fw; cbn; lra|]. split; [lra|]. split; [|split; reflexivity].
  unfold std_prior, finish_div, odiv, gamma_of, relu, klog. cbn [map]. rewrite !Rsum_cons, !Rsum_nil. unfold fx, fw, fy. cbn [fst snd]. rewrite Ropp_0, exp_0.
  replace (1 * 1 + 0) with 1 by lra. rewrite Rmax_left by lra. destruct (Req_EM_T (1 + 1) 0); [lra|]. destruct (Rlt_dec 0 (1 + 1)); [reflexivity|lra].
Qed.
