(** Temporal pooling (C87). *)
From Coq Require Import ZArith List Bool Reals Lra Lia Permutation.
From Verif Require Import Base NormalDiag NormalDiagProps ScoreNorm Pool.
Import ListNotations.
Open Scope list_scope. Open Scope R_scope.

(** ** Specification *)
(** weighted sums over the frames of a sequence *)
Definition wsum {A} (x : list (R * A)) (g : A -> R) : R := Rsum (map (fun f => fst f * g (snd f)) x).
Definition nonneg {A} (x : list (R * A)) : Prop := Forall (fun f => 0 <= fst f) x.
(** what every weighted layer depends on *)
Lemma wsum_cons {A} (f : R * A) x g : wsum (f :: x) g = fst f * g (snd f) + wsum x g.
Proof. reflexivity. Qed.
Lemma wsum_app {A} (x y : list (R * A)) g : wsum (x ++ y) g = wsum x g + wsum y g.
Proof. induction x as [|f x IH]; simpl; [unfold wsum at 2; simpl; lra|]. rewrite !wsum_cons, IH. ring. Qed.
Lemma wsum_pad {A} (x y : list (R * A)) v g : wsum (x ++ (0, v) :: y) g = wsum (x ++ y) g.
Proof. rewrite !wsum_app, wsum_cons. simpl. ring. Qed.
Lemma wsum_perm {A} (x y : list (R * A)) g : Permutation x y -> wsum x g = wsum y g.
Proof. intros P. induction P as [|f x y P IH|f f' x|x y z P IH P' IH']; [reflexivity|rewrite !wsum_cons, IH; reflexivity|rewrite !wsum_cons; ring|rewrite IH; exact IH']. Qed.
Lemma wsum_lin {A} (x : list (R * A)) a b g h : wsum x (fun v => a * g v + b * h v) = a * wsum x g + b * wsum x h.
Proof. induction x as [|f x IH]; [unfold wsum; simpl; lra|]. rewrite !wsum_cons, IH. ring. Qed.
Lemma wsum_ext {A} (x : list (R * A)) g h : (forall v, g v = h v) -> wsum x g = wsum x h.
Proof. intros E. unfold wsum. f_equal. apply map_ext. intros f. rewrite E. reflexivity. Qed.
Lemma wsum_nonneg {A} (x : list (R * A)) g : nonneg x -> (forall v, 0 <= g v) -> 0 <= wsum x g.
Proof. intros H G. induction H as [|f x Hf H IH]; [unfold wsum; simpl; lra|]. rewrite wsum_cons. pose proof (Rmult_le_pos _ _ Hf (G (snd f))). lra. Qed.
Lemma wsum_zero {A} (x : list (R * A)) g : nonneg x -> (forall v, 0 <= g v) -> wsum x g = 0 -> Forall (fun f => fst f = 0 \/ g (snd f) = 0) x.
Proof.
  intros H G E. induction H as [|f x Hf H IH]; [constructor|]. rewrite wsum_cons in E. pose proof (Rmult_le_pos _ _ Hf (G (snd f))) as P. pose proof (wsum_nonneg x g H G) as Q.
  constructor; [|apply IH; lra]. apply Rmult_integral. lra.
Qed.
Lemma wsum_map {A B} (h : R * A -> R * B) x g : wsum (map h x) g = Rsum (map (fun f => fst (h f) * g (snd (h f))) x).
Proof. unfold wsum. rewrite map_map. reflexivity. Qed.
Lemma odiv_scale a b n : n <> 0 -> odiv (a / n) (b / n) = odiv a b.
Proof.
  intros N. unfold odiv. destruct (Req_EM_T b 0) as [->|B].
  - destruct (Req_EM_T (0 / n) 0) as [_|E]; [reflexivity|]. exfalso. apply E. unfold Rdiv. ring.
  - destruct (Req_EM_T (b / n) 0) as [E|_].
    + exfalso. apply B. apply (Rmult_eq_reg_r (/ n)); [unfold Rdiv in E; lra|apply Rinv_neq_0_compat; exact N].
    + f_equal. field. split; assumption.
Qed.
Lemma mean_ratio {A} (x : list A) g h : obind (mean (map g x)) (fun a => obind (mean (map h x)) (fun n => odiv a n)) = odiv (Rsum (map g x)) (Rsum (map h x)).
Proof.
  unfold mean. rewrite !map_length. destruct x as [|f x].
  - simpl. unfold odiv. destruct (Req_EM_T 0 0); [reflexivity|contradiction].
  - assert (N : INR (List.length (f :: x)) <> 0) by (apply not_0_INR; simpl; lia). unfold odiv at 1 2. destruct (Req_EM_T _ 0); [contradiction|]. cbn [obind]. apply odiv_scale, N.
Qed.
Lemma avg_form x : avg_pool x = odiv (wsum x (fun v => v)) (wsum x (fun _ => 1)).
Proof.
  unfold avg_pool. rewrite mean_ratio. unfold wsum. f_equal; f_equal; apply map_ext; intros f; ring.
Qed.
Lemma var_form x : var_pool x = obind (avg_pool x) (fun mu => odiv (wsum x (fun v => (v - mu)²)) (wsum x (fun _ => 1))).
Proof.
  unfold var_pool. destruct (avg_pool x) as [mu|]; [|reflexivity]. cbn [obind]. rewrite mean_ratio. unfold wsum. f_equal; f_equal; apply map_ext; intros f; ring.
Qed.
Lemma sum_form x : sum_pool x = wsum x (fun v => v).
Proof. unfold sum_pool, wsum. f_equal. apply map_ext. intros f. ring. Qed.

(** ** Weighted averages *)
(** with positive total weight the layers give the weighted mean and the weighted standard deviation, and the log of the variance plus 1e-10 *)
Theorem C87_mean x : 0 < wsum x (fun _ => 1) -> avg_pool x = Some (wsum x (fun v => v) / wsum x (fun _ => 1)).
Proof. intros P. rewrite avg_form. unfold odiv. destruct (Req_EM_T _ 0); [lra|reflexivity]. Qed.
Theorem C87_mean_std x : nonneg x -> 0 < wsum x (fun _ => 1) -> exists mu sd, mean_std_pool x = (Some mu, Some sd) /\ mean_logvar_pool x = (Some mu, Some (ln (sd² + / 10 ^ 10))) /\
  wsum x (fun v => v - mu) = 0 /\ 0 <= sd /\ sd² * wsum x (fun _ => 1) = wsum x (fun v => (v - mu)²) /\
  (sd = 0 <-> Forall (fun f => fst f = 0 \/ snd f = mu) x).
Proof.
  intros H P. set (N := wsum x (fun _ => 1)) in *. set (mu := wsum x (fun v => v) / N). set (V := wsum x (fun v => (v - mu)²)).
  assert (VP : 0 <= V) by (apply wsum_nonneg; [exact H|intros; apply Rle_0_sqr]). assert (VN : 0 <= V / N) by (apply Rmult_le_pos; [exact VP|left; apply Rinv_0_lt_compat, P]).
  assert (E : var_pool x = Some (V / N)). { rewrite var_form, (C87_mean x P). cbn [obind]. fold N mu V. unfold odiv. destruct (Req_EM_T N 0); [lra|reflexivity]. }
  exists mu, (sqrt (V / N)). unfold mean_std_pool, mean_logvar_pool. rewrite E, (C87_mean x P). fold N mu. cbn [obind]. destruct (Rlt_dec (V / N) 0); [lra|].
  assert (S : (sqrt (V / N))² = V / N) by (apply Rsqr_sqrt, VN). rewrite S. destruct (Rlt_dec 0 (V / N + / 10 ^ 10)) as [_|C]; [|exfalso; apply C; assert (0 < / 10 ^ 10) by (apply Rinv_0_lt_compat, pow_lt; lra); lra].
  split; [reflexivity|]. split; [reflexivity|]. split; [|split; [apply sqrt_pos|split]].
  - rewrite (wsum_ext x _ (fun v => 1 * v + (- mu) * 1)) by (intros; ring). rewrite wsum_lin. fold N. unfold mu. field. lra.
  - fold V. clearbody V. field. lra.
  - split; intros Z.
    + assert (V0 : V = 0). { apply (Rmult_eq_reg_r (/ N)); [|apply Rinv_neq_0_compat; lra]. fold (V / N). rewrite <- S, Z. unfold Rsqr. ring. }
      pose proof (wsum_zero x _ H (fun v => Rle_0_sqr (v - mu)) V0) as F. clearbody V mu. clear - F. induction F as [|f x Hf F IH]; constructor; [|exact IH]. destruct Hf as [Hf|Hf]; [left; exact Hf|right]. apply Rsqr_0_uniq in Hf. lra.
    + assert (V0 : V = 0). { unfold V. clear - Z. clearbody mu. induction Z as [|f x Hf Z IH]; [reflexivity|]. rewrite wsum_cons, IH. destruct Hf as [-> | ->]; unfold Rsqr; ring. }
      rewrite V0. unfold Rdiv. rewrite Rmult_0_l. apply sqrt_0.
Qed.
Example C87_mean_std_ex : nonneg [(1, 3); (0, 100); (1, 5)] /\ 0 < wsum [(1, 3); (0, 100); (1, 5)] (fun _ => 1) /\ avg_pool [(1, 3); (0, 100); (1, 5)] = Some 4.
Proof.
  assert (E : wsum [(1, 3); (0, 100); (1, 5)] (fun _ => 1) = 2) by (unfold wsum, Rsum; simpl; lra).
  split; [repeat constructor; simpl; lra|]. split; [lra|]. rewrite C87_mean, E by lra. unfold wsum, Rsum. simpl. f_equal. lra.
Qed.
(** frames of weight 0 do not matter, wherever they are and whatever they contain: padding a sequence changes nothing; nor does the order of the frames *)
Theorem C87_padding x y v : avg_pool (x ++ (0, v) :: y) = avg_pool (x ++ y) /\ sum_pool (x ++ (0, v) :: y) = sum_pool (x ++ y) /\
  mean_std_pool (x ++ (0, v) :: y) = mean_std_pool (x ++ y) /\ mean_logvar_pool (x ++ (0, v) :: y) = mean_logvar_pool (x ++ y).
Proof.
  assert (A : avg_pool (x ++ (0, v) :: y) = avg_pool (x ++ y)) by (rewrite !avg_form, !wsum_pad; reflexivity).
  assert (V : var_pool (x ++ (0, v) :: y) = var_pool (x ++ y)). { rewrite !var_form, A. destruct (avg_pool (x ++ y)); [|reflexivity]. cbn [obind]. rewrite !wsum_pad. reflexivity. }
  split; [exact A|]. split; [rewrite !sum_form; apply wsum_pad|]. unfold mean_std_pool, mean_logvar_pool. rewrite A, V. split; reflexivity.
Qed.
Theorem C87_order x y : Permutation x y -> avg_pool x = avg_pool y /\ sum_pool x = sum_pool y /\ mean_std_pool x = mean_std_pool y /\ mean_logvar_pool x = mean_logvar_pool y.
Proof.
  intros P. assert (A : avg_pool x = avg_pool y) by (rewrite !avg_form, !(wsum_perm x y) by exact P; reflexivity).
  assert (V : var_pool x = var_pool y). { rewrite !var_form, A. destruct (avg_pool y); [|reflexivity]. cbn [obind]. rewrite !(wsum_perm x y) by exact P. reflexivity. }
  split; [exact A|]. split; [rewrite !sum_form; apply wsum_perm, P|]. unfold mean_std_pool, mean_logvar_pool. rewrite A, V. split; reflexivity.
Qed.
(** no frame with weight: nothing finite comes out of the averages *)
Theorem C87_no_weight x : wsum x (fun _ => 1) = 0 -> mean_std_pool x = (None, None) /\ mean_logvar_pool x = (None, None).
Proof.
  intros Z. assert (A : avg_pool x = None). { rewrite avg_form, Z. unfold odiv. destruct (Req_EM_T 0 0); [reflexivity|contradiction]. }
  unfold mean_std_pool, mean_logvar_pool, var_pool. rewrite A. split; reflexivity.
Qed.

(** ** Maximum *)
Lemma fold_max l v : (forall u, In u (v :: l) -> u <= fold_left Rmax l v) /\ In (fold_left Rmax l v) (v :: l).
Proof.
  revert v. induction l as [|u l IH]; intros v; simpl; [split; [intros w [<- |[]]; lra|left; reflexivity]|].
  destruct (IH (Rmax v u)) as [H1 H2]. split.
  - intros w [<- |[<- |W]]; [pose proof (H1 (Rmax v u) (or_introl eq_refl)); pose proof (Rmax_l v u); lra|pose proof (H1 (Rmax v u) (or_introl eq_refl)); pose proof (Rmax_r v u); lra|apply H1; right; exact W].
  - destruct H2 as [E|E]; [rewrite <- E; unfold Rmax; destruct (Rle_dec v u); auto|right; right; exact E].
Qed.
(** m is the largest of the values of f over x *)
Definition is_max (l : list R) (m : R) : Prop := In m l /\ forall u, In u l -> u <= m.
Lemma rmax_ok l m : rmax l = Some m <-> is_max l m.
Proof.
  destruct l as [|v l]; simpl; [split; [discriminate|intros [[] _]]|]. destruct (fold_max l v) as [H1 H2]. split.
  - intros E. injection E as <-. split; assumption.
  - intros [I M]. f_equal. apply Rle_antisym; [apply M, H2|apply H1, I].
Qed.
Definition mask01 (x : list frame) : Prop := Forall (fun f => fst f = 0 \/ fst f = 1) x.
Definition kept (x : list frame) : list R := map snd (filter (fun f => if Req_EM_T (fst f) 1 then true else false) x).
Lemma kept_in x v : In v (kept x) <-> In (1, v) x.
Proof.
  unfold kept. rewrite in_map_iff. split.
  - intros ((w & u) & <- & F). apply filter_In in F. destruct F as [F1 F2]. simpl in *. destruct (Req_EM_T w 1) as [->|]; [exact F1|discriminate].
  - intros H. exists (1, v). split; [reflexivity|]. apply filter_In. split; [exact H|]. simpl. destruct (Req_EM_T 1 1); [reflexivity|contradiction].
Qed.
(** the Theano back-end gives the maximum over the unmasked frames, if there is one and the values differ by less than 10^10 *)
Theorem C87_max_theano x m : mask01 x -> is_max (kept x) m -> (forall v, In (0, v) x -> v <= m + 10 ^ 10) -> max_theano x = Some m.
Proof.
  intros M [I U] B. apply rmax_ok. split.
  - apply in_map_iff. exists (1, m). split; [cbn [fst snd]; ring|apply kept_in, I].
  - intros u H. apply in_map_iff in H. destruct H as ((w & v) & <- & F). destruct (proj1 (Forall_forall _ _) M _ F) as [E|E]; cbn [fst] in E; subst w; cbn [fst snd].
    + specialize (B v F). replace (1 - 0) with 1 by ring. rewrite Rmult_1_r. lra.
    + assert (v <= m) by (apply U, kept_in, F). replace (1 - 1) with 0 by ring. rewrite Rmult_0_r. lra.
Qed.
(** the TensorFlow back-end also compares with 0 as soon as a frame is masked *)
Theorem C87_max_tf x m : mask01 x -> is_max (kept x) m -> max_tf x = Some (if existsb (fun f => if Req_EM_T (fst f) 0 then true else false) x then Rmax 0 m else m).
Proof.
  intros M [I U]. set (ex := existsb (fun f : R * R => if Req_EM_T (fst f) 0 then true else false) x).
  assert (EX : ex = true <-> exists v, In (0, v) x). { unfold ex. rewrite existsb_exists. split; [intros ((w & v) & F & G)|intros (v & F); exists (0, v)]; [simpl in G; destruct (Req_EM_T w 0) as [->|]; [exists v; exact F|discriminate]|split; [exact F|simpl; destruct (Req_EM_T 0 0); [reflexivity|contradiction]]]. }
  clearbody ex. apply rmax_ok. split.
  - apply in_map_iff. destruct ex.
    + unfold Rmax. destruct (Rle_dec 0 m) as [L|L].
      * exists (1, m). split; [cbn [fst snd]; ring|apply kept_in, I].
      * destruct (proj1 EX eq_refl) as (v & F). exists (0, v). split; [cbn [fst snd]; ring|exact F].
    + exists (1, m). split; [cbn [fst snd]; ring|apply kept_in, I].
  - intros u H. apply in_map_iff in H. destruct H as ((w & v) & <- & F). destruct (proj1 (Forall_forall _ _) M _ F) as [E|E]; cbn [fst] in E; subst w; cbn [fst snd].
    + assert (T : ex = true) by (apply EX; exists v; exact F). rewrite T. pose proof (Rmax_l 0 m). rewrite Rmult_0_r. lra.
    + assert (v <= m) by (apply U, kept_in, F). replace (1 - 1) with 0 by ring. rewrite Rmult_0_r, Rmult_1_r. destruct ex; [pose proof (Rmax_r 0 m); lra|lra].
Qed.
(** so padding a sequence changes its maximum *)
Theorem C87_max_refuted : exists x v, mask01 (x ++ [(0, v)]) /\ is_max (kept (x ++ [(0, v)])) (-1) /\ max_tf x = Some (-1) /\ max_tf (x ++ [(0, v)]) = Some 0.
Proof.
  exists [(1, -1)], 0. assert (K : is_max (kept ([(1, -1)] ++ [(0, 0)])) (-1)).
  { split; [apply kept_in; simpl; left; reflexivity|]. intros u H. apply kept_in in H. simpl in H. destruct H as [E|[E|[]]]; injection E as; lra. }
  assert (M : mask01 ([(1, -1)] ++ [(0, 0)])) by (repeat constructor; simpl; lra).
  split; [exact M|]. split; [exact K|]. split.
  - unfold max_tf. cbn [map rmax fold_left fst snd]. f_equal. ring.
  - rewrite (C87_max_tf _ (-1) M K). simpl. destruct (Req_EM_T 1 0); [lra|]. destruct (Req_EM_T 0 0); [|contradiction]. simpl. f_equal. unfold Rmax. destruct (Rle_dec 0 (-1)); lra.
Qed.

(** ** Products of posteriors *)
Lemma clip_range v lo hi : lo <= hi -> lo <= clip v lo hi <= hi.
Proof. intros H. unfold clip, Rmin, Rmax. destruct (Rle_dec v lo), (Rle_dec _ hi); lra. Qed.
Lemma clip_id v lo hi : lo <= v <= hi -> clip v lo hi = v.
Proof. intros H. unfold clip, Rmin, Rmax. destruct (Rle_dec v lo), (Rle_dec _ hi); lra. Qed.
Lemma inv_ge1 b : 0 < b < 1 -> 1 <= 1 / b.
Proof. intros B. apply (Rmult_le_reg_r b); [lra|]. unfold Rdiv. rewrite Rmult_assoc, Rinv_l; lra. Qed.
Lemma ratio_range b e : 0 < b < 1 -> 0 < e -> 1 <= (1 + e) / (1 + b * e) <= 1 / b.
Proof.
  intros B E. assert (P : 0 < 1 + b * e) by nra. split; apply (Rmult_le_reg_r (1 + b * e)); try exact P; unfold Rdiv; rewrite (Rmult_assoc (1 + e)), Rinv_l by lra; [nra|].
  replace (1 * / b * (1 + b * e)) with (/ b + e) by (field; lra). assert (1 <= / b) by (rewrite <- (Rmult_1_l (/ b)); apply (inv_ge1 b B)). lra.
Qed.
(** the precision of a frame is never below that of the prior nor above 1/min_var *)
Theorem C87_prec_range f b p : 0 < b < 1 -> 1 <= input_prec f b p <= 1 / b.
Proof.
  intros B. pose proof (inv_ge1 b B) as G. destruct f; cbn [input_prec]; try (apply clip_range; exact G).
  - apply ratio_range; [exact B|apply exp_pos].
  - apply ratio_range; [exact B|apply exp_pos].
  - destruct (Req_EM_T p 0); [lra|apply clip_range; exact G].
Qed.
(** a frame with variance v between min_var and 1 is read alike in every format *)
Theorem C87_formats b v : 0 < b < 1 -> b <= v <= 1 -> input_prec Var b v = 1 / v /\ input_prec Prec b (1 / v) = 1 / v /\ input_prec PrecM1 b (1 / v - 1) = 1 / v /\
  input_prec LogVar b (ln v) = 1 / v /\ input_prec LogPrec b (- ln v) = 1 / v.
Proof.
  intros B V. assert (R : 1 <= 1 / v <= 1 / b). { split; unfold Rdiv; rewrite !Rmult_1_l; [rewrite <- Rinv_1|]; apply Rinv_le_contravar; lra. }
  assert (E : exp (- ln v) = 1 / v) by (rewrite exp_Ropp, exp_ln by lra; unfold Rdiv; ring).
  cbn [input_prec]. rewrite E. destruct (Req_EM_T v 0); [lra|]. replace (1 / v - 1 + 1) with (1 / v) by ring. rewrite (clip_id (1 / v)) by exact R. repeat split.
Qed.
(** logitvar y stands for the variance min_var + (1 - min_var) sigmoid(y), and logprec-1 for the one of -y *)
Theorem C87_logit_formats b y : 0 < b < 1 -> -7 <= y <= 7 -> 1 / input_prec LogitVar b y = b + (1 - b) * (1 / (1 + exp (- y))) /\ input_prec LogPrecM1 b (- y) = input_prec LogitVar b y.
Proof.
  intros B Y. cbn [input_prec]. rewrite !clip_id by lra. split; [|reflexivity]. pose proof (exp_pos (- y)). field. repeat split; try lra; nra.
Qed.
(** the natural mean and the precision of a frame *)
Definition frame_prec (i2 : in_fmt2) (b : R) (p : R * R) : R := input_prec i2 b (snd p).
Definition frame_eta (i1 : fmt1) (i2 : in_fmt2) (b : R) (p : R * R) : R := match i1 with Mean1 => fst p * frame_prec i2 b p | Nat1 => fst p end.
Lemma post_form i1 i2 o1 o2 b c x : post_pool i1 i2 o1 o2 b c x =
  let eta := c * wsum x (frame_eta i1 i2 b) in let prec := clip (1 + c * wsum x (fun p => frame_prec i2 b p - 1)) 1 (10 ^ 5) in
  (match o1 with Mean1 => eta / prec | Nat1 => eta end, match o2 with OLogVar => - ln prec | OVar => 1 / prec | OLogPrec => ln prec | OPrec => prec end).
Proof.
  unfold post_pool. cbv zeta.
  assert (E1 : Rsum (map (fun f : R * (R * R) => match i1 with Nat1 => fst (snd f) | Mean1 => fst (snd f) * input_prec i2 b (snd (snd f)) end * fst f) x) = wsum x (frame_eta i1 i2 b)).
  { unfold wsum. f_equal. apply map_ext. intros f. unfold frame_eta, frame_prec. ring. }
  assert (E2 : Rsum (map (fun f : R * (R * R) => (input_prec i2 b (snd (snd f)) - 1) * fst f) x) = wsum x (fun p => frame_prec i2 b p - 1)).
  { unfold wsum. f_equal. apply map_ext. intros f. unfold frame_prec. ring. }
  rewrite E1, E2. reflexivity.
Qed.
(** the result is a Gaussian at least as narrow as the prior; the output formats describe the same one *)
Theorem C87_post_formats i1 i2 b c x : exists eta prec, 1 <= prec <= 10 ^ 5 /\
  forall o1 o2, post_pool i1 i2 o1 o2 b c x = (match o1 with Mean1 => eta / prec | Nat1 => eta end, match o2 with OLogVar => ln (1 / prec) | OVar => 1 / prec | OLogPrec => ln prec | OPrec => prec end).
Proof.
  exists (c * wsum x (frame_eta i1 i2 b)), (clip (1 + c * wsum x (fun p => frame_prec i2 b p - 1)) 1 (10 ^ 5)).
  assert (R : 1 <= clip (1 + c * wsum x (fun p => frame_prec i2 b p - 1)) 1 (10 ^ 5) <= 10 ^ 5) by (apply clip_range; simpl; lra). split; [exact R|].
  intros o1 o2. rewrite post_form. cbv zeta. f_equal. destruct o2; try reflexivity. unfold Rdiv. rewrite Rmult_1_l, ln_Rinv; [reflexivity|lra].
Qed.
(** it is the product of the posteriors of the frames, each taken relative to the standard normal prior and to the power of its weight times the frame
    correlation factor: the log of that product minus the log density of the result is the same at every point *)
Theorem C87_post_bayes i1 i2 b c x : 0 < b < 1 -> 0 <= c -> nonneg x -> 1 + c * wsum x (fun p => frame_prec i2 b p - 1) <= 10 ^ 5 ->
  exists K, forall y, let r := post_pool i1 i2 Mean1 OPrec b c x in
    ln (gauss 0 1 y) + c * wsum x (fun p => ln (gauss (frame_eta i1 i2 b p / frame_prec i2 b p) (frame_prec i2 b p) y) - ln (gauss 0 1 y)) = ln (gauss (fst r) (snd r) y) + K.
Proof.
  intros B C N U. set (S := wsum x (fun p => frame_prec i2 b p - 1)) in *. set (E := wsum x (frame_eta i1 i2 b)).
  assert (SP : 0 <= S). { apply wsum_nonneg; [exact N|]. intros p. pose proof (C87_prec_range i2 b (snd p) B). unfold frame_prec. lra. }
  assert (CS : 0 <= c * S) by (apply Rmult_le_pos; assumption).
  set (Q := wsum x (fun p => 1/2 * ln (frame_prec i2 b p) - 1/2 * (frame_eta i1 i2 b p)² / frame_prec i2 b p)).
  set (P := 1 + c * S) in *.
  exists (c * Q - 1/2 * ln P + 1/2 * (c * E)² / P).
  intros y. rewrite post_form. cbv zeta. fold S E P. rewrite clip_id by (unfold P in *; lra). cbn [fst snd].
  rewrite (wsum_ext x _ (fun p => 1 * (1/2 * ln (frame_prec i2 b p) - 1/2 * (frame_eta i1 i2 b p)² / frame_prec i2 b p) + 1 * (y * frame_eta i1 i2 b p + (- (1/2) * y²) * (frame_prec i2 b p - 1)))).
  - rewrite wsum_lin, wsum_lin. fold S E Q. rewrite !ln_gauss by (unfold P; lra). rewrite ln_1. replace (frame_eta i1 i2 b) with (fun p => frame_eta i1 i2 b p) by reflexivity. unfold Rsqr, P. field. lra.
  - intros p. pose proof (C87_prec_range i2 b (snd p) B) as G. fold (frame_prec i2 b p) in G. rewrite !ln_gauss by lra. rewrite ln_1. unfold Rsqr. field. lra.
Qed.
Example C87_post_bayes_ex : 0 < 1/10 < 1 /\ nonneg [(1, (2, 1/2)); (0, (5, 1/2))] /\ 1 + 1 * wsum [(1, (2, 1/2)); (0, (5, 1/2))] (fun p => frame_prec Var (1/10) p - 1) = 2.
Proof.
  split; [lra|]. split; [repeat constructor; simpl; lra|]. unfold wsum, frame_prec, Rsum. cbn [map fst snd fold_right].
  destruct (C87_formats (1/10) (1/2) ltac:(lra) ltac:(lra)) as (E & _). rewrite E. field.
Qed.
Theorem C87_post_padding i1 i2 o1 o2 b c x y v : post_pool i1 i2 o1 o2 b c (x ++ (0, v) :: y) = post_pool i1 i2 o1 o2 b c (x ++ y).
Proof. rewrite !post_form, !wsum_pad. reflexivity. Qed.
Theorem C87_post_order i1 i2 o1 o2 b c x y : Permutation x y -> post_pool i1 i2 o1 o2 b c x = post_pool i1 i2 o1 o2 b c y.
Proof. intros P. rewrite !post_form, !(wsum_perm x y) by exact P. reflexivity. Qed.
(** no frame with weight: the prior *)
Theorem C87_post_prior i1 i2 b c : post_pool i1 i2 Mean1 OVar b c [] = (0, 1).
Proof. rewrite post_form. cbv zeta. unfold wsum. cbn [map Rsum fold_right]. rewrite Rmult_0_r, Rplus_0_r, clip_id by (simpl; lra). f_equal; field. Qed.

(** ** Learnable dictionary encoding *)
Lemma sumn_pos n f : (0 < n)%nat -> (forall k, 0 < f k) -> 0 < sumn n f.
Proof.
  intros N P. unfold sumn, Rsum. destruct n as [|n]; [lia|]. clear N. generalize 0%nat. induction n as [|n IH]; intros a; simpl; [specialize (P a); lra|]. specialize (IH (S a)). simpl in IH. specialize (P a). lra.
Qed.
Lemma resp_pos order comp D mu s x k : (0 < comp)%nat -> 0 < lde_resp order comp D mu s x k.
Proof. intros C. unfold lde_resp. apply Rdiv_lt_0_compat; [apply exp_pos|]. apply sumn_pos; [exact C|intros; apply exp_pos]. Qed.
(** the assignments of a frame to the components are positive and sum to one *)
Theorem C87_lde_resp order comp D mu s x : (0 < comp)%nat -> (forall k, 0 < lde_resp order comp D mu s x k) /\ sumn comp (lde_resp order comp D mu s x) = 1.
Proof.
  intros C. split; [intros k; apply resp_pos, C|]. unfold lde_resp. set (T := sumn comp (fun h => exp (- s h * lde_dist order D (mu h) x))). assert (0 < T) by (apply sumn_pos; [exact C|intros; apply exp_pos]).
  rewrite (sumn_ext comp _ (fun k => / T * exp (- s k * lde_dist order D (mu k) x))) by (intros; unfold Rdiv; ring). rewrite sumn_mul. fold T. field. lra.
Qed.
(** the assignment falls exponentially with the scaled distance to the centre, absolute for order 1 and squared otherwise *)
Theorem C87_lde_assign order comp D mu s x k l : (0 < comp)%nat -> let dist := fun m : nat -> R => if Z.eqb order 1 then sumn D (fun j => Rabs (x j - m j)) else sumn D (fun j => (x j - m j)²) in
  lde_resp order comp D mu s x k * exp (s k * dist (mu k)) = lde_resp order comp D mu s x l * exp (s l * dist (mu l)).
Proof.
  intros C dist. assert (T0 : 0 < sumn comp (fun h => exp (- s h * lde_dist order D (mu h) x))) by (apply sumn_pos; [exact C|intros; apply exp_pos]).
  assert (E : forall k, lde_resp order comp D mu s x k * exp (s k * dist (mu k)) = / sumn comp (fun h => exp (- s h * lde_dist order D (mu h) x))); [|rewrite !E; reflexivity].
  intros h. unfold lde_resp. assert (DD : dist (mu h) = lde_dist order D (mu h) x) by (unfold dist, lde_dist; destruct (Z.eqb order 1); reflexivity). rewrite DD.
  unfold Rdiv. rewrite Rmult_comm, <- Rmult_assoc, <- exp_plus. replace (s h * lde_dist order D (mu h) x + - s h * lde_dist order D (mu h) x) with 0 by ring. rewrite exp_0. ring.
Qed.
(** every component gives the average offset from its centre, the frames weighted by weight times assignment *)
Theorem C87_lde order comp D mu s x k j : (0 < comp)%nat -> nonneg x -> 0 < wsum x (fun _ => 1) ->
  let g := fun v => lde_resp order comp D mu s v k in 0 < wsum x g /\ lde_pool order comp D mu s x k j = Some (wsum x (fun v => g v * (v j - mu k j)) / wsum x g).
Proof.
  intros C N P g. assert (GP : forall v, 0 < g v) by (intros v; apply resp_pos, C).
  assert (W : 0 < wsum x g).
  { assert (Z : wsum x g <> 0). { intros E. pose proof (wsum_zero x g N (fun v => Rlt_le _ _ (GP v)) E) as F. assert (Z : wsum x (fun _ => 1) = 0); [|lra].
      clear - F GP. induction F as [|f x Hf F IH]; [reflexivity|]. rewrite wsum_cons, IH. destruct Hf as [-> |Hf]; [ring|]. specialize (GP (snd f)). lra. }
    pose proof (wsum_nonneg x g N (fun v => Rlt_le _ _ (GP v))). lra. }
  split; [exact W|]. unfold lde_pool. rewrite avg_form, !wsum_map. cbn [fst snd].
  assert (E1 : Rsum (map (fun f : R * (nat -> R) => lde_resp order comp D mu s (snd f) k * fst f * snd f j) x) = wsum x (fun v => g v * v j)) by (unfold wsum; f_equal; apply map_ext; intros f; unfold g; ring).
  assert (E2 : Rsum (map (fun f : R * (nat -> R) => lde_resp order comp D mu s (snd f) k * fst f * 1) x) = wsum x g) by (unfold wsum; f_equal; apply map_ext; intros f; unfold g; ring).
  rewrite E1, E2. unfold odiv. destruct (Req_EM_T (wsum x g) 0); [lra|]. cbn [obind]. f_equal.
  rewrite (wsum_ext x (fun v => g v * (v j - mu k j)) (fun v => 1 * (g v * v j) + (- mu k j) * g v)) by (intros; ring). rewrite wsum_lin. field. lra.
Qed.
Theorem C87_lde_shape order comp D mu s x : List.length (lde_out order comp D mu s x) = (comp * D)%nat /\
  forall k j, (k < comp)%nat -> (j < D)%nat -> nth_error (lde_out order comp D mu s x) (k * D + j) = Some (lde_pool order comp D mu s x k j).
Proof.
  unfold lde_out. generalize (lde_pool order comp D mu s x). intros f. assert (G : forall n a, List.length (concat (map (fun k => map (f k) (seq 0 D)) (seq a n))) = (n * D)%nat /\
    forall k j, (k < n)%nat -> (j < D)%nat -> nth_error (concat (map (fun k => map (f k) (seq 0 D)) (seq a n))) (k * D + j) = Some (f (a + k)%nat j)).
  { induction n as [|n IH]; intros a; [split; [reflexivity|intros; lia]|]. cbn [seq map concat]. destruct (IH (S a)) as [I1 I2]. split.
    - rewrite app_length, I1, map_length, seq_length. lia.
    - intros [|k] j K J.
      + rewrite nth_error_app1 by (rewrite map_length, seq_length; lia). rewrite nth_error_map, (nth_error_nth' _ 0%nat) by (rewrite seq_length; lia). rewrite seq_nth by lia. simpl. rewrite Nat.add_0_r. reflexivity.
      + rewrite nth_error_app2 by (rewrite map_length, seq_length; lia). rewrite map_length, seq_length. replace (S k * D + j - D)%nat with (k * D + j)%nat by lia. rewrite I2 by lia. do 2 f_equal. lia. }
  destruct (G comp 0%nat) as [G1 G2]. split; [exact G1|]. intros k j K J. rewrite G2 by assumption. reflexivity.
Qed.
Theorem C87_lde_padding order comp D mu s x y v : lde_out order comp D mu s (x ++ (0, v) :: y) = lde_out order comp D mu s (x ++ y).
Proof.
  unfold lde_out. f_equal. apply map_ext. intros k. apply map_ext. intros j. unfold lde_pool. f_equal. rewrite !map_app. cbn [map fst snd]. rewrite Rmult_0_r. apply C87_padding.
Qed.
Theorem C87_lde_order order comp D mu s x y : Permutation x y -> lde_out order comp D mu s x = lde_out order comp D mu s y.
Proof. intros P. unfold lde_out. f_equal. apply map_ext. intros k. apply map_ext. intros j. unfold lde_pool. f_equal. apply C87_order. apply Permutation_map, P. Qed.
Print Assumptions C87_post_bayes. Print Assumptions C87_lde.
