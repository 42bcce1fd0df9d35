(** Probabilistic layers and losses (C88). *)
From Coq Require Import ZArith List Bool Reals Lra Lia.
From Verif Require Import Base NormalDiag NormalDiagProps GmmDiagProps ScoreNorm Pool PoolProps KLoss.
Import ListNotations.
Open Scope list_scope. Open Scope R_scope.

(** ** Specification *)
(** the expected value of the log density of N(m', 1/l') under a distribution with mean m and variance v: the log density is quadratic, so mean and
    variance determine it *)
Definition elog (m v m' l' : R) : R := ln (gauss m' l' m) - 1/2 * l' * v.
Theorem C88_elog m v m' l' a b c : 0 < l' -> (forall y, ln (gauss m' l' y) = a + b * y + c * y²) -> elog m v m' l' = a + b * m + c * (m² + v).
Proof.
  intros L H. unfold elog. rewrite (H m). pose proof (H 0) as H0. pose proof (H 1) as H1. pose proof (H (-1)) as H2. rewrite !ln_gauss in H0, H1, H2 by exact L.
  assert (E : c = - (1/2) * l') by (unfold Rsqr in *; nra). rewrite E. unfold Rsqr. ring.
Qed.
(** a feature with its mean and variance *)
Definition mean_of (m : fmt1) (f : var_fmt) (p : R * R) := to_mean m f p.
Definition var_of (f : var_fmt) (p : R * R) := to_var f (snd p).
Definition good (f : var_fmt) (p : R * R) : Prop := match f with FVar | FPrec => 0 < snd p | _ => True end.
Lemma good_var f p : good f p -> 0 < to_var f (snd p) /\ to_logvar f (snd p) = ln (to_var f (snd p)).
Proof.
  unfold good, to_var, to_logvar. destruct f; intros H.
  - split; [exact H|reflexivity].
  - split; [apply Rdiv_lt_0_compat; lra|]. unfold Rdiv. rewrite Rmult_1_l, ln_Rinv; [reflexivity|exact H].
  - split; [apply exp_pos|symmetry; apply ln_exp].
  - split; [apply exp_pos|symmetry; apply ln_exp].
Qed.
Lemma Rsum_map_eq {A} (g h : A -> R) (P : A -> Prop) l : Forall P l -> (forall x, P x -> g x = h x) -> Rsum (map g l) = Rsum (map h l).
Proof. intros F E. unfold Rsum. induction F as [|x l Hx F IH]; [reflexivity|]. simpl. rewrite IH, (E x Hx). reflexivity. Qed.
Lemma Rsum_scale {A} c (g : A -> R) l : c * Rsum (map g l) = Rsum (map (fun x => c * g x) l).
Proof. unfold Rsum. induction l as [|x l IH]; simpl; [ring|]. rewrite <- IH. ring. Qed.

(** ** Divergences *)
(** the layer gives the expected log ratio of the posterior (to the power 1/beta) and the prior, summed over the features, but at least min_kl *)
Theorem C88_kl_std m f min_kl beta p : 0 < beta -> Forall (good f) p ->
  kl_std m f min_kl beta p = Rmax (Rsum (map (fun q => let mu := to_mean m f q in let v := to_var f (snd q) in / beta * elog mu v mu (/ v) - elog mu v 0 1) p)) min_kl.
Proof.
  intros B G. unfold kl_std. rewrite Rsum_scale. f_equal. apply (Rsum_map_eq _ _ (good f)); [exact G|]. intros q Q. destruct (good_var f q Q) as [V E]. cbv zeta. unfold elog, log2pi.
  rewrite !ln_gauss by (try (apply Rinv_0_lt_compat; exact V); lra). rewrite ln_Rinv, ln_1 by exact V. rewrite E. unfold Rsqr. field. lra.
Qed.
Theorem C88_kl_diag m f min_kl beta p : 0 < beta -> Forall (fun q => good f (fst q) /\ good f (snd q)) p ->
  kl_diag m f min_kl beta p = Rmax (Rsum (map (fun q => let mu := to_mean m f (fst q) in let v := to_var f (snd (fst q)) in let mu2 := to_mean m f (snd q) in let v2 := to_var f (snd (snd q)) in
    / beta * elog mu v mu (/ v) - elog mu v mu2 (/ v2)) p)) min_kl.
Proof.
  intros B G. unfold kl_diag. rewrite Rsum_scale. f_equal. apply (Rsum_map_eq _ _ (fun q => good f (fst q) /\ good f (snd q))); [exact G|]. intros q [Q1 Q2]. destruct (good_var f _ Q1) as [V1 E1]. destruct (good_var f _ Q2) as [V2 E2].
  cbv zeta. unfold elog, log2pi. rewrite !ln_gauss by (apply Rinv_0_lt_compat; assumption). rewrite !ln_Rinv by assumption. rewrite E1, E2. unfold Rsqr. field. lra.
Qed.
Example C88_kl_ex : Forall (good FPrec) [(1, 2); (0, 1)] /\ Forall (fun q : (R * R) * (R * R) => good FVar (fst q) /\ good FVar (snd q)) [((1, 2), (0, 1))].
Proof. split; repeat constructor; simpl; lra. Qed.
(** without annealing and free bits the divergence is not negative, and 0 only for the prior itself *)
Lemma kl_term mu v : 0 < v -> 0 <= - ln v - 1 + (mu² + v) /\ (- ln v - 1 + (mu² + v) = 0 -> mu = 0 /\ v = 1).
Proof.
  intros V. pose proof (Rle_0_sqr mu) as M. pose proof (ln_le_sub1 v V) as L. split; [lra|]. intros E. assert (M0 : mu² = 0) by lra. apply Rsqr_0_uniq in M0. split; [exact M0|].
  assert (E1 : ln v = v - 1) by (subst mu; unfold Rsqr in E; lra). pose proof (exp_ln v V) as X. rewrite E1 in X. destruct (Req_dec v 1) as [|N]; [assumption|]. exfalso.
  assert (N' : v - 1 <> 0) by lra. pose proof (exp_ineq1 (v - 1) N') as I. lra.
Qed.
Theorem C88_kl_zero m f p : Forall (good f) p -> 0 <= kl_std m f 0 1 p /\ (kl_std m f 0 1 p = 0 <-> Forall (fun q => to_mean m f q = 0 /\ to_var f (snd q) = 1) p).
Proof.
  intros G. unfold kl_std. set (S := Rsum _). assert (E : 1 / (2 * 1) * S = 1/2 * Rsum (map (fun q => - ln (to_var f (snd q)) - 1 + ((to_mean m f q)² + to_var f (snd q))) p)).
  { unfold S. replace (1 / (2 * 1)) with (1/2) by field. f_equal. apply (Rsum_map_eq _ _ (good f)); [exact G|]. intros q Q. destruct (good_var f q Q) as [_ E]. rewrite E. ring. }
  rewrite E. clear E S. split; [apply Rmax_r|].
  assert (P : 0 <= Rsum (map (fun q => - ln (to_var f (snd q)) - 1 + ((to_mean m f q)² + to_var f (snd q))) p)).
  { unfold Rsum. induction G as [|q p Q G IH]; simpl; [lra|]. destruct (good_var f q Q) as [V _]. destruct (kl_term (to_mean m f q) _ V) as [T _]. lra. }
  rewrite Rmax_left by lra. split.
  - intros Z. assert (Z' : Rsum (map (fun q => - ln (to_var f (snd q)) - 1 + ((to_mean m f q)² + to_var f (snd q))) p) = 0) by lra. clear Z P.
    unfold Rsum in Z'. induction G as [|q p Q G IH]; [constructor|]. simpl in Z'. destruct (good_var f q Q) as [V _]. destruct (kl_term (to_mean m f q) _ V) as [T T0].
    assert (P : 0 <= fold_right Rplus 0 (map (fun q => - ln (to_var f (snd q)) - 1 + ((to_mean m f q)² + to_var f (snd q))) p)).
    { clear - G. induction G as [|q p Q G IH]; simpl; [lra|]. destruct (good_var f q Q) as [V _]. destruct (kl_term (to_mean m f q) _ V) as [T _]. lra. }
    constructor; [apply T0; lra|apply IH; lra].
  - intros F. clear P G. assert (Z : Rsum (map (fun q => - ln (to_var f (snd q)) - 1 + ((to_mean m f q)² + to_var f (snd q))) p) = 0); [|lra].
    unfold Rsum. induction F as [|q p [M V] F IH]; [reflexivity|]. simpl. rewrite IH, M, V, ln_1. unfold Rsqr. ring.
Qed.
(** the formats of the same distribution give the same divergence *)
Theorem C88_kl_formats min_kl beta p : Forall (fun q => 0 < snd q) p ->
  kl_std Mean1 FPrec min_kl beta (map (fun q => (fst q, 1 / snd q)) p) = kl_std Mean1 FVar min_kl beta p /\
  kl_std Mean1 FLogVar min_kl beta (map (fun q => (fst q, ln (snd q))) p) = kl_std Mean1 FVar min_kl beta p /\
  kl_std Mean1 FLogPrec min_kl beta (map (fun q => (fst q, - ln (snd q))) p) = kl_std Mean1 FVar min_kl beta p /\
  kl_std Nat1 FVar min_kl beta (map (fun q => (fst q / snd q, snd q)) p) = kl_std Mean1 FVar min_kl beta p.
Proof.
  intros G. unfold kl_std. rewrite !map_map. cbn [to_var to_logvar to_mean fst snd].
  split; [|split; [|split]]; do 2 f_equal; apply (Rsum_map_eq _ _ (fun q => 0 < snd q)); try exact G; intros q Q.
  - replace (ln (1 / snd q)) with (- ln (snd q)) by (unfold Rdiv; rewrite Rmult_1_l, ln_Rinv by exact Q; reflexivity). replace (1 / (1 / snd q)) with (snd q) by (field; lra). ring.
  - rewrite exp_ln by exact Q. reflexivity.
  - rewrite Ropp_involutive, exp_ln by exact Q. reflexivity.
  - replace (snd q * (fst q / snd q)) with (fst q) by (field; lra). reflexivity.
Qed.
(** the divergence between two distributions can not be used as a layer: whatever the inputs, it raises *)
Theorem C88_kl_diag_layer_refuted {A B} (call : A -> A -> A -> A -> B) inputs : kl_diag_layer call inputs = Err ValueError.
Proof. unfold kl_diag_layer. destruct inputs as [|a [|b [|c l]]]; reflexivity. Qed.
(** sequences: padding frames, whose mean is zero, still get the divergence of their variance, and without time_norm they do not count for the length *)
Theorem C88_kl_seq m f min_kl beta x n p : nth_error x n = Some p ->
  nth_error (kl_std_seq m f min_kl beta true x) n = Some (kl_std m f min_kl beta p) /\
  nth_error (kl_std_seq m f min_kl beta false x) n = Some (INR (List.length (filter (fun r => existsb (fun q => if Req_EM_T (to_mean m f q) 0 then false else true) r) x)) * kl_std m f min_kl beta p).
Proof.
  intros H. unfold kl_std_seq. rewrite !nth_error_map, H. cbn [option_map]. split; [f_equal; ring|]. f_equal. f_equal. unfold live_frames. f_equal. clear. induction x as [|r x IH]; [reflexivity|]. simpl.
  assert (E : existsb (fun v => if Req_EM_T v 0 then false else true) (map (to_mean m f) r) = existsb (fun q => if Req_EM_T (to_mean m f q) 0 then false else true) r).
  { clear. induction r as [|q r IH]; [reflexivity|]. simpl. rewrite IH. reflexivity. }
  rewrite E. destruct (existsb _ r); simpl; rewrite IH; reflexivity.
Qed.

(** ** Losses *)
(** the Gaussian loss is the negative log density of the target (times the length) *)
Theorem C88_nllk_normal T y mu lv : List.length mu = List.length y -> List.length lv = List.length y ->
  nllk_normal T y (mu ++ lv) = - (T * Rsum (map (fun q => ln (gauss (fst (snd q)) (/ exp (snd (snd q))) (fst q))) (combine y (combine mu lv)))).
Proof.
  intros L1 L2. unfold nllk_normal. rewrite <- L1, firstn_app, skipn_app, Nat.sub_diag, firstn_all, skipn_all. cbn [firstn skipn app]. rewrite app_nil_r.
  replace (1/2 * T * Rsum (map (fun q => log2pi + snd (snd q) + (fst q - fst (snd q))² / exp (snd (snd q))) (combine y (combine mu lv))))
    with (T * Rsum (map (fun q => 1/2 * (log2pi + snd (snd q) + (fst q - fst (snd q))² / exp (snd (snd q)))) (combine y (combine mu lv)))) by (rewrite <- Rsum_scale; ring).
  replace (- (T * Rsum (map (fun q => ln (gauss (fst (snd q)) (/ exp (snd (snd q))) (fst q))) (combine y (combine mu lv)))))
    with (T * (-1 * Rsum (map (fun q => ln (gauss (fst (snd q)) (/ exp (snd (snd q))) (fst q))) (combine y (combine mu lv))))) by ring.
  rewrite (Rsum_scale (-1)). f_equal. f_equal. apply map_ext. intros q. pose proof (exp_pos (snd (snd q))) as X. rewrite ln_gauss by (apply Rinv_0_lt_compat, X). rewrite ln_Rinv, ln_exp by exact X. unfold log2pi, Rdiv. ring.
Qed.
(** cross entropy of a one-hot target: minus the log of the predicted probability of the class (of a prediction that is a distribution inside the clipping range) *)
Lemma onehot_sum c n (g : R -> R) pred : (c < n)%nat -> List.length pred = n ->
  Rsum (map (fun q => fst q * g (snd q)) (combine (map (fun i => if Nat.eqb i c then 1 else 0) (seq 0 n)) pred)) = g (nth c pred 0).
Proof.
  revert pred. assert (Z : forall a n pred, (c < a)%nat -> Rsum (map (fun q => fst q * g (snd q)) (combine (map (fun i => if Nat.eqb i c then 1 else 0) (seq a n)) pred)) = 0).
  { intros a m. revert a. unfold Rsum. induction m as [|m IH]; intros a [|v pred] A; simpl; try reflexivity. destruct (Nat.eqb_spec a c); [lia|]. rewrite IH by lia. ring. }
  assert (G : forall m a pred, (a <= c < a + m)%nat -> List.length pred = m -> Rsum (map (fun q => fst q * g (snd q)) (combine (map (fun i => if Nat.eqb i c then 1 else 0) (seq a m)) pred)) = g (nth (c - a) pred 0)).
  { induction m as [|m IH]; intros a [|v pred] A L; try discriminate; [lia|]. cbn [seq map combine]. unfold Rsum. cbn [map fold_right fst snd]. fold (Rsum (map (fun q => fst q * g (snd q)) (combine (map (fun i => if Nat.eqb i c then 1 else 0) (seq (S a) m)) pred))).
    destruct (Nat.eqb_spec a c) as [->|N].
    - rewrite Z by lia. rewrite Nat.sub_diag. simpl. ring.
    - rewrite IH by (simpl in L; lia). replace (c - a)%nat with (S (c - S a)) by lia. simpl. ring. }
  intros pred C L. rewrite (G n 0%nat pred) by lia. rewrite Nat.sub_0_r. reflexivity.
Qed.
Definition one_hot (n c : nat) : list R := map (fun i => if Nat.eqb i c then 1 else 0) (seq 0 n).
Theorem C88_categorical T n c pred : (c < n)%nat -> List.length pred = n -> Rsum pred = 1 -> keps <= nth c pred 0 <= 1 - keps ->
  nllk_categorical T (one_hot n c) pred = - (T * ln (nth c pred 0)).
Proof.
  intros C L S B. unfold nllk_categorical, one_hot. rewrite (onehot_sum c n (fun v => ln (clip (v / Rsum pred) keps (1 - keps)))) by assumption. rewrite S. replace (nth c pred 0 / 1) with (nth c pred 0) by field. rewrite clip_id by exact B. ring.
Qed.
(** minimum Bayes risk: the probability of an error *)
Theorem C88_mbr n c pred : (c < n)%nat -> List.length pred = n -> Rsum pred = 1 -> categorical_mbr (one_hot n c) pred = Rsum (map (fun q => (1 - fst q) * snd q) (combine (one_hot n c) pred)).
Proof.
  intros C L SS. unfold categorical_mbr. set (X := Rsum (map _ _)). replace (1 - X) with (Rsum pred - X) by (rewrite SS; reflexivity). unfold X. clear X. assert (HL : List.length (one_hot n c) = List.length pred) by (unfold one_hot; rewrite map_length, seq_length; lia).
  revert HL. generalize (one_hot n c). clear. intros y. revert y. unfold Rsum. induction pred as [|v pred IH]; intros [|u y] L; try discriminate; simpl; [ring|]. specialize (IH y ltac:(simpl in L; lia)). lra.
Qed.
Lemma keps_range : 0 < keps < 1/2.
Proof. unfold keps. split; [apply Rinv_0_lt_compat, pow_lt; lra|]. apply Rmult_lt_reg_r with (10 ^ 7); [apply pow_lt; lra|]. rewrite Rinv_l by (apply pow_nonzero; lra). simpl. lra. Qed.
(** the Bernoulli loss swaps prediction and target: for a target of 0 or 1 it is linear in the prediction, and not the log loss *)
Theorem C88_bernoulli_linear T p : nllk_bernoulli T [1] [p] = T * (- (p * ln (1 - keps) + (1 - p) * ln keps)) /\ nllk_bernoulli T [0] [p] = T * (- (p * ln keps + (1 - p) * ln (1 - keps))).
Proof.
  pose proof keps_range as K. unfold nllk_bernoulli, binary_crossentropy. cbn [combine map fst snd]. unfold Rsum. cbn [fold_right].
  assert (C1 : clip 1 keps (1 - keps) = 1 - keps) by (unfold clip, Rmin, Rmax; destruct (Rle_dec 1 keps), (Rle_dec _ _); lra).
  assert (C0 : clip 0 keps (1 - keps) = keps) by (unfold clip, Rmin, Rmax; destruct (Rle_dec 0 keps), (Rle_dec _ _); lra).
  rewrite C1, C0. replace (1 - (1 - keps)) with keps by ring. split; ring.
Qed.
Theorem C88_bernoulli_refuted : exists p, 0 < p < 1 /\ keps <= p <= 1 - keps /\ nllk_bernoulli 1 [1] [p] <> - ln p.
Proof.
  pose proof keps_range as K. exists (1/2). split; [lra|]. split; [lra|]. destruct (C88_bernoulli_linear 1 (1/2)) as [E _]. rewrite E. intros H.
  assert (H2 : ln ((1 - keps) * keps) = ln ((1/2) * (1/2))) by (rewrite !ln_mult by lra; lra). apply ln_inv in H2; [|nra|lra]. assert (keps < / 100); [|nra].
  unfold keps. apply Rinv_lt_contravar; simpl; lra.
Qed.

(** ** Samples *)
Lemma sd_nonneg f p : 0 <= stddev f p.
Proof. destruct f; cbn [stddev]; [apply Rabs_pos|apply sqrt_pos|left; apply exp_pos]. Qed.
(** a draw has the density of the distribution described by the parameters: that of eps over the standard deviation *)
Theorem C88_draw m f p eps : 0 < stddev f (snd p) -> let s := stddev f (snd p) in
  gauss (match m with Mean1 => fst p | Nat1 => s * s * fst p end) (/ (s * s)) (draw m f p eps) = gauss 0 1 eps / s /\
  (f = SVar -> 0 < snd p -> s * s = snd p) /\ (f = SLogVar -> s * s = exp (snd p)) /\ (f = SStd -> s * s = (snd p)²).
Proof.
  intros P s. split; [|split; [|split]].
  - unfold gauss. set (c := match m with Mean1 => fst p | Nat1 => s * s * fst p end). assert (C : draw m f p eps = c + s * eps) by (unfold draw, c, s; destruct m; cbn [fst snd]; unfold Rsqr; ring). rewrite C. clearbody c.
    replace (c + s * eps - c) with (s * eps) by ring. replace (eps - 0) with eps by ring.
    assert (S2 : / (s * s) / (2 * PI) = (1 / (2 * PI)) * (/ s)²) by (unfold Rsqr; field; assert (PI <> 0) by apply Rgt_not_eq, PI_RGT_0; assert (s <> 0) by (unfold s; lra); split; assumption).
    rewrite S2, sqrt_mult; [|left; apply Rdiv_lt_0_compat; [lra|exact two_pi_pos]|apply Rle_0_sqr]. rewrite sqrt_Rsqr by (left; apply Rinv_0_lt_compat; exact P).
    replace (- (/ (s * s) * (s * eps)²) / 2) with (- (1 * eps²) / 2) by (unfold Rsqr; field; unfold s; lra). unfold Rdiv. ring.
  - intros -> V. unfold s. cbn [stddev]. rewrite sqrt_sqrt by apply Rabs_pos. apply Rabs_right. lra.
  - intros ->. unfold s. cbn [stddev]. rewrite <- exp_plus. f_equal. field.
  - intros ->. unfold s. cbn [stddev]. fold (Rsqr (Rabs (snd p))). symmetry. apply Rsqr_abs.
Qed.
Example C88_draw_ex : 0 < stddev SLogVar 0 /\ draw Nat1 SLogVar (3, 0) 2 = 5.
Proof. split; [apply exp_pos|]. unfold draw. cbn [stddev fst snd]. replace (0 / 2) with 0 by field. rewrite exp_0. ring. Qed.
(** with n samples per element, the samples of an element follow each other, and the shape is the announced one *)
Lemma rep_nth {A} n (x : list A) i r : (r < n)%nat -> nth_error (repeat_elements n x) (i * n + r) = nth_error x i.
Proof.
  intros N. revert i. unfold repeat_elements. induction x as [|a x IH]; intros i; [simpl; destruct i; destruct (_ + r)%nat; reflexivity|]. cbn [map concat].
  destruct i as [|i].
  - rewrite nth_error_app1 by (rewrite repeat_length; simpl; lia). simpl. assert (R0 : forall n r, (r < n)%nat -> nth_error (repeat a n) r = Some a) by (clear; induction n as [|n IH]; intros [|r] R; simpl; try lia; [reflexivity|apply IH; lia]). apply R0, N.
  - rewrite nth_error_app2 by (rewrite repeat_length; simpl; lia). rewrite repeat_length. replace (S i * n + r - n)%nat with (i * n + r)%nat by (simpl; lia). apply IH.
Qed.
Lemma rep_len {A} n (x : list A) : List.length (repeat_elements n x) = (List.length x * n)%nat.
Proof. unfold repeat_elements. induction x as [|a x IH]; [reflexivity|]. simpl. rewrite app_length, repeat_length, IH. reflexivity. Qed.
Lemma nth_combine {A B} (x : list A) (y : list B) i a b : nth_error x i = Some a -> nth_error y i = Some b -> nth_error (combine x y) i = Some (a, b).
Proof. revert y i. induction x as [|u x IH]; intros [|v y] [|i] HA HB; try discriminate; simpl in *; [congruence|apply IH; assumption]. Qed.
Theorem C88_sampler m f n x eps dim : (1 <= n)%nat -> List.length eps = (List.length x * n)%nat -> Forall (fun p => List.length p = dim) x -> Forall (fun e => List.length e = dim) eps ->
  let y := sampler m f n x eps in (List.length y, dim) = sampler_shape n (List.length x) dim /\ Forall (fun r => List.length r = dim) y /\
  forall i r p e, (r < n)%nat -> nth_error x i = Some p -> nth_error eps (i * n + r) = Some e -> nth_error y (i * n + r) = Some (map (fun q => draw m f (fst q) (snd q)) (combine p e)).
Proof.
  intros N L FX FE y. set (x' := if (1 <? n)%nat then repeat_elements n x else x).
  assert (LX : List.length x' = (List.length x * n)%nat) by (unfold x'; destruct (Nat.ltb_spec 1 n); [apply rep_len|replace n with 1%nat by lia; lia]).
  assert (NX : forall i r, (r < n)%nat -> nth_error x' (i * n + r) = nth_error x i). { intros i r R. unfold x'. destruct (Nat.ltb_spec 1 n); [apply rep_nth, R|]. f_equal. assert (n = 1%nat) by lia. subst n. lia. }
  assert (FX' : Forall (fun p => List.length p = dim) x'). { apply Forall_forall. intros p HI. unfold x' in HI. destruct (1 <? n)%nat; [|exact (proj1 (Forall_forall _ _) FX p HI)]. unfold repeat_elements in HI. apply in_concat in HI. destruct HI as (l & H1 & H2). apply in_map_iff in H1. destruct H1 as (q & <- & H3). apply repeat_spec in H2. subst p. exact (proj1 (Forall_forall _ _) FX q H3). }
  split; [|split].
  - unfold y, sampler, sampler_shape. fold x'. rewrite map_length, combine_length, LX, L, Nat.min_id. reflexivity.
  - unfold y, sampler. fold x'. apply Forall_forall. intros r HI. apply in_map_iff in HI. destruct HI as ((p & e) & <- & H). pose proof (in_combine_l _ _ _ _ H) as H1. pose proof (in_combine_r _ _ _ _ H) as H2. cbn [fst snd]. rewrite map_length, combine_length.
    rewrite (proj1 (Forall_forall _ _) FX' p H1), (proj1 (Forall_forall _ _) FE e H2). apply Nat.min_id.
  - intros i r p e R HX HE. unfold y, sampler. fold x'. rewrite nth_error_map, (nth_combine x' eps (i * n + r) p e); [reflexivity|rewrite NX by exact R; exact HX|exact HE].
Qed.
(** the shape announced by the tied sampler forgets the number of samples *)
Theorem C88_tied_shape_refuted m f : exists n seq x eps, let y := tied_sampler m f n seq false x eps in List.length y = 2%nat /\ tied_shape n (List.length x) seq 1 = (1%nat, 1%nat, 1%nat).
Proof. exists 2%nat, 1%nat, [[(0, 0)]], [[[0]]; [[0]]]. split; reflexivity. Qed.
(** one draw per sequence is repeated over the sequence *)
Theorem C88_tied m f seq x e : tied_sampler m f 1 seq true [x] [[e]] = [repeat (map (fun q => draw m f (fst q) (snd q)) (combine x e)) seq].
Proof. unfold tied_sampler. cbn [Nat.ltb Nat.leb combine map fst snd]. f_equal. induction seq as [|s IH]; [reflexivity|]. simpl. f_equal. exact IH. Qed.
(** ** Format conversion: the same Gaussian, with its precision clipped to the range of the layer *)
Theorem C88_convert i1 i2 b p : exists eta mean prec, prec = input_prec i2 b (snd p) /\ (i1 = Nat1 -> eta = fst p) /\ (i1 = Mean1 -> mean = fst p) /\ (0 < b < 1 -> eta = mean * prec) /\
  forall o1 o2, convert i1 i2 o1 o2 b p = (match o1 with Nat1 => eta | Mean1 => mean end, match o2 with OLogVar => - ln prec | OVar => 1 / prec | OLogPrec => ln prec | OPrec => prec end).
Proof.
  set (prec := input_prec i2 b (snd p)). destruct i1.
  - exists (fst p), (fst p / prec), prec. split; [reflexivity|]. split; [reflexivity|]. split; [discriminate|]. split; [|intros [] o2; reflexivity]. intros B. pose proof (C87_prec_range i2 b (snd p) B) as R. fold prec in R. field. lra.
  - exists (fst p * prec), (fst p), prec. split; [reflexivity|]. split; [discriminate|]. split; [reflexivity|]. split; [reflexivity|]. intros [] o2; reflexivity.
Qed.
(** ** Q-scoring: the score of a class is the log of the integral of class posterior times input posterior over the prior: at every point of the hidden
    space, both log densities less that of the prior are the log density of a Gaussian plus the score *)
Theorem C88_q_score x : Forall (fun q => 1 <= snd (fst q) /\ 1 <= snd (snd q)) x ->
  forall y, List.length y = List.length x ->
  Rsum (map (fun r => let q := fst r in let v := snd r in
      ln (gauss (fst (fst q)) (snd (fst q)) v) + ln (gauss (fst (snd q) / snd (snd q)) (snd (snd q)) v) - ln (gauss 0 1 v)) (combine x y)) =
  Rsum (map (fun r => let q := fst r in let L := snd (fst q) + snd (snd q) - 1 in ln (gauss ((snd (fst q) * fst (fst q) + fst (snd q)) / L) L (snd r))) (combine x y)) + q_score x.
Proof.
  intros F. induction F as [|q x [F1 F2] F IH]; intros [|v y] L; try discriminate.
  - unfold q_score, Rsum. simpl. lra.
  - specialize (IH y ltac:(simpl in L; lia)). unfold q_score, Rsum in *. cbn [combine map fst snd fold_right] in *. rewrite IH. clear IH.
    destruct q as [[m Le] [et Lt]]. cbn [fst snd] in *. rewrite !ln_gauss by lra. rewrite ln_1. replace (Lt + Le - 1) with (Le + Lt - 1) by ring. unfold Rsqr. field. lra.
Qed.
Example C88_q_score_ex : Forall (fun q => 1 <= snd (fst q) /\ 1 <= snd (snd q)) [((1, 2), (3, 4)); ((0, 1), (0, 1))].
Proof. repeat constructor; simpl; lra. Qed.
Print Assumptions C88_kl_std. Print Assumptions C88_q_score. Print Assumptions C88_sampler.
