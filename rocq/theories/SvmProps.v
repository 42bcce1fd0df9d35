(** C114: the linear support vector classifier evaluates what was trained, and its posteriors. *)
From Coq Require Import ZArith List Bool Reals Lra Lia.
From Verif Require Import Base BaseFacts SeqGen MathFns MathFnsProps Logit Svm.
Import ListNotations.
Open Scope list_scope. Open Scope R_scope.

(** ** Specification: the decision function of the trained machine *)
Definition decision (coef : list (list R)) (int : list R) (x : list R) : list R := map (fun p => dotr (fst p) x + snd p) (combine coef int).
Definition fits (coef : list (list R)) (int : list R) (x : list (list R)) : Prop := List.length int = List.length coef /\ Forall (fun r => Forall (fun a => List.length a = List.length r) coef) x.
Definition post_of (e : svm_eval) (s : list R) : res (list R) := match e with
  | SLogit => Ok s | SBinLogPost => Ok (map (fun v => ln (1 + exp (- v))) s) | SBinPost => Ok (map (fun v => 1 / (1 + exp (- v))) s)
  | SCatPost => softmax s | SCatLogPost => p <- softmax s ;; Ok (map ln p) end.

Lemma dots coef r : Forall (fun a => List.length a = List.length r) coef -> mapM (fun a => dotc a r) coef = Ok (map (fun a => dotr a r) coef).
Proof. intro F. apply mapM_pure. intros a Ha. rewrite Forall_forall in F. unfold dotc. rewrite F, Nat.eqb_refl by exact Ha. reflexivity. Qed.
Lemma badd_map {A} (f : A -> R) (l : list A) (b : list R) : List.length b = List.length l -> badd (map f l) b = Ok (map (fun p => f (fst p) + snd p) (combine l b)).
Proof. intro L. unfold badd. rewrite map_length, L, Nat.eqb_refl. f_equal. revert b L. induction l as [|a l IH]; intros [|v b] L; cbn in *; try discriminate; [reflexivity|]. f_equal. apply IH. lia. Qed.
Lemma predict_E m coef int e x : s_fit m = Some (coef, int) -> fits coef int x ->
  svm_predict m e x = mapM (fun r => post_of e (decision coef (map (fun v => v * s_scale m) int) r)) x.
Proof. intros HF [L F]. unfold svm_predict, svm_A, svm_b. rewrite HF. cbn [bind]. induction F as [|r x Fr _ IH]; [reflexivity|]. cbn [mapM]. rewrite dots by exact Fr. cbn [bind].
  rewrite badd_map by (rewrite map_length; exact L). cbn [bind]. rewrite IH. destruct e; reflexivity. Qed.
Lemma scaled_1 l s : s = 1 -> map (fun v => v * s) l = l.
Proof. intros ->. rewrite <- map_id. apply map_ext. intro. ring. Qed.

(** with a bias scaling of one (the default), the trained machine's scores are its decision function, and the training is given the data and weights as they
    are *)
Theorem C114_decision sk use_bias balance x ids sw coef int t : sk (mk_scall 1 use_bias balance x ids sw) = Ok (coef, int) -> fits coef int t ->
  exists m, svm_fit sk (svm_make None use_bias 1 balance) x ids sw = Ok m /\ svm_predict m SLogit t = Ok (map (decision coef int) t) /\
  (forall e, svm_predict m e t = mapM (fun r => post_of e (decision coef int r)) t).
Proof. intros E F. eexists. split; [unfold svm_fit; cbn; rewrite E; reflexivity|].
  assert (P : forall e, svm_predict (mk_svm use_bias 1 balance (Some (coef, int))) e t = mapM (fun r => post_of e (decision coef int r)) t).
  { intro e. rewrite predict_E with (coef := coef) (int := int) by (cbn; auto). cbn [s_scale]. rewrite scaled_1 by reflexivity. reflexivity. }
  split; [|exact P]. rewrite P. apply mapM_pure. reflexivity. Qed.
(** with any other scaling the intercepts are multiplied a second time: the scores are off by (scale - 1) times the intercept *)
Theorem C114_scaling sk use_bias balance scale x ids sw coef int t : sk (mk_scall scale use_bias balance x ids sw) = Ok (coef, int) -> fits coef int t ->
  exists m, svm_fit sk (svm_make None use_bias scale balance) x ids sw = Ok m /\
  svm_predict m SLogit t = Ok (map (fun r => map (fun p => dotr (fst p) r + snd p + (scale - 1) * snd p) (combine coef int)) t).
Proof. intros E F. eexists. split; [unfold svm_fit; cbn; rewrite E; reflexivity|]. rewrite predict_E with (coef := coef) (int := int) by (cbn; auto). cbn [s_scale post_of].
  apply mapM_pure. intros r _. f_equal. unfold decision. clear. revert int. induction coef as [|a coef IH]; intros [|b int]; cbn [map combine]; try reflexivity. f_equal; [cbn; ring|apply IH]. Qed.
Theorem C114_scaling_refuted : exists coef int m, svm_fit (fun _ => Ok (coef, int)) (svm_make None true 100 false) [] [] None = Ok m /\ decision coef int [1] = [1] /\ svm_predict m SLogit [[1]] = Ok [[-98]].
Proof. exists [[2]], [-1]. eexists. split; [reflexivity|]. split; [cbn; f_equal; ring|]. rewrite predict_E with (coef := [[2]]) (int := [-1]).
  - cbn [mapM bind post_of svm_make s_scale]. unfold decision, dotr, MathFns.Rsum. cbn. replace (2 * 1 + 0 + -1 * 100) with (-98) by ring. reflexivity.
  - reflexivity.
  - split; [reflexivity|]. repeat constructor. Qed.
(** saving and loading keeps every prediction when the scaling is one or there is no bias; otherwise each save and load multiplies the bias again *)
Theorem C114_reloads n m coef int : s_fit m = Some (coef, int) ->
  svm_reloads n m = Ok (mk_svm (s_bias m) (s_scale m) (s_balance m) (Some (coef, map (fun v => v * s_scale m ^ n) int))).
Proof. revert m int. induction n as [|n IH]; intros m int E; cbn [svm_reloads pow].
  - replace (map (fun v => v * 1) int) with int by (rewrite <- (map_id int) at 1; apply map_ext; intro; ring). destruct m; cbn in *; subst; reflexivity.
  - unfold svm_reload, svm_A, svm_b. rewrite E. cbn [bind]. rewrite (IH _ (map (fun v => v * s_scale m) int)) by reflexivity. cbn [svm_make s_bias s_scale s_balance].
    rewrite map_map. replace (map (fun v => v * s_scale m * s_scale m ^ n) int) with (map (fun v => v * (s_scale m * s_scale m ^ n)) int) by (apply map_ext; intro; ring). reflexivity. Qed.
Theorem C114_reload n m coef int e x : s_fit m = Some (coef, int) -> s_scale m = 1 \/ Forall (fun v => v = 0) int -> exists m', svm_reloads n m = Ok m' /\ svm_predict m' e x = svm_predict m e x.
Proof. intros E H. eexists. split; [apply C114_reloads, E|]. replace (map (fun v => v * s_scale m ^ n) int) with int; [destruct m; cbn in *; subst; reflexivity|].
  destruct H as [H|H]; [symmetry; apply scaled_1 with (s := s_scale m ^ n); rewrite H; apply pow1|]. clear E. induction H as [|v int -> _ IH]; [reflexivity|]. cbn. f_equal; [ring|exact IH]. Qed.
Theorem C114_reload_refuted n : (1 <= n)%nat -> exists m m', s_fit m = Some ([[0]], [1]) /\ svm_reloads n m = Ok m' /\ svm_predict m SLogit [[1]] = Ok [[2]] /\ svm_predict m' SLogit [[1]] = Ok [[2 * 2 ^ n]] /\ 2 < 2 * 2 ^ n.
Proof. intro Hn. exists (mk_svm true 2 false (Some ([[0]], [1]))). eexists. split; [reflexivity|]. split; [apply C114_reloads; reflexivity|]. cbn [s_bias s_scale s_balance map].
  split; [|split].
  - rewrite predict_E with (coef := [[0]]) (int := [1]) by (first [reflexivity | (split; [reflexivity|repeat constructor])]). cbn [mapM bind post_of s_scale decision map combine fst snd]. replace (dotr [0] [1]) with 0 by (unfold dotr; cbn; ring). replace (0 + 1 * 2) with 2 by ring. reflexivity.
  - rewrite predict_E with (coef := [[0]]) (int := [1 * 2 ^ n]) by (first [reflexivity | (split; [reflexivity|repeat constructor])]). cbn [mapM bind post_of s_scale decision map combine fst snd]. replace (dotr [0] [1]) with 0 by (unfold dotr; cbn; ring). replace (0 + 1 * 2 ^ n * 2) with (2 * 2 ^ n) by ring. reflexivity.
  - assert (1 < 2 ^ n); [|lra]. apply Rlt_pow_R1; [lra|lia]. Qed.
(** the binary posterior is in (0, 1), above one half exactly for positive scores, and larger for larger scores *)
Theorem C114_bin_post s p : post_of SBinPost s = Ok p -> List.length p = List.length s /\ forall j v w, nth_error s j = Some v -> nth_error p j = Some w ->
  0 < w < 1 /\ (1 / 2 < w <-> 0 < v) /\ ln (w / (1 - w)) = v.
Proof. intro E. injection E as <-. split; [apply map_length|]. intros j v w Hv Hw. rewrite nth_error_map, Hv in Hw. cbn in Hw. injection Hw as <-.
  assert (P := exp_pos (- v)). assert (I : 0 < 1 + exp (- v)) by lra. assert (V : 0 < / (1 + exp (- v))) by (apply Rinv_0_lt_compat, I). split; [|split].
  - unfold Rdiv. rewrite Rmult_1_l. split; [exact V|]. rewrite <- Rinv_1. apply Rinv_lt_contravar; lra.
  - assert (X : 1 / 2 < 1 / (1 + exp (- v)) <-> exp (- v) < 1).
    { unfold Rdiv. rewrite !Rmult_1_l. split; intro H.
      - destruct (Rlt_le_dec (exp (- v)) 1) as [|G]; [assumption|]. exfalso. assert (/ (1 + exp (- v)) <= / 2) by (apply Rinv_le_contravar; lra). lra.
      - apply Rinv_lt_contravar; [|lra]. apply Rmult_lt_0_compat; lra. }
    rewrite X. split; intro H; [|rewrite <- exp_0; apply exp_increasing; lra]. rewrite <- exp_0 in H. apply exp_lt_inv in H. lra.
  - replace (1 / (1 + exp (- v)) / (1 - 1 / (1 + exp (- v)))) with (exp v).
    + apply ln_exp.
    + assert (Q : exp v * exp (- v) = 1) by (rewrite <- exp_plus, Rplus_opp_r; apply exp_0). assert (PV := exp_pos v). replace (exp (- v)) with (/ exp v) by (rewrite exp_Ropp; reflexivity). field. lra. Qed.
(** 'bin-logpost' is minus the logarithm of that posterior: it is positive, and decreases with the score *)
Theorem C114_bin_logpost_refuted s : exists p l, post_of SBinPost s = Ok p /\ post_of SBinLogPost s = Ok l /\ l = map (fun w => - ln w) p /\ Forall (fun v => 0 < v) l.
Proof. eexists; eexists. split; [reflexivity|]. split; [reflexivity|]. split.
  - rewrite map_map. apply map_ext. intro v. unfold Rdiv. rewrite Rmult_1_l, ln_Rinv; [ring|]. assert (P := exp_pos (- v)). lra.
  - apply Forall_forall. intros y Hy. apply in_map_iff in Hy. destruct Hy as (v & <- & _). rewrite <- ln_1. apply ln_increasing; [lra|]. assert (P := exp_pos (- v)). lra. Qed.
(** categorical posteriors: positive, summing to one, ordered as the scores, unchanged by a common shift; their logarithms are the scores up to one constant *)
Theorem C114_cat_post s : s <> [] -> exists p l c, post_of SCatPost s = Ok p /\ post_of SCatLogPost s = Ok l /\ List.length p = List.length s /\ Forall (fun v => 0 < v <= 1) p /\ Rsum p = 1 /\
  l = map ln p /\ l = map (fun v => v - c) s /\ (forall d, post_of SCatPost (map (fun v => v + d) s) = Ok p).
Proof. intro NE. destruct (C63_softmax s NE) as (p & E & EP & R). exists p, (map ln p), (ln (sum_exp s)). cbn [post_of]. rewrite E. cbn [bind].
  assert (SP := sum_exp_pos s NE).
  assert (SD : forall l c, Rsum (map (fun v => exp v / c) l) = sum_exp l / c).
  { clear. intros l c. induction l as [|v l IH]; [unfold Rsum, sum_exp; cbn; unfold Rdiv; ring|]. unfold Rsum, sum_exp in *. cbn in *. rewrite IH. unfold Rdiv. ring. }
  assert (LE := fun v => sum_exp_ge s v).
  split; [reflexivity|]. split; [reflexivity|]. split; [rewrite EP; apply map_length|]. split; [|split; [|split; [reflexivity|split]]].
  - rewrite EP. apply Forall_forall. intros y Hy. apply in_map_iff in Hy. destruct Hy as (v & <- & Hv). specialize (LE v Hv). assert (P := exp_pos v). split; [apply Rmult_lt_0_compat; [exact P|apply Rinv_0_lt_compat, SP]|].
    apply Rmult_le_reg_r with (sum_exp s); [exact SP|]. unfold Rdiv. rewrite Rmult_assoc, Rinv_l by lra. lra.
  - rewrite EP, SD. field. lra.
  - rewrite EP, map_map. apply map_ext. intro v. unfold Rdiv. rewrite ln_mult, ln_exp, ln_Rinv by (try apply exp_pos; try exact SP; apply Rinv_0_lt_compat, SP). reflexivity.
  - intro d. rewrite C63_softmax_shift. exact E. Qed.
(** of a machine for two classes, which has one row of coefficients, the categorical posterior is 1 for every sample *)
Theorem C114_two_classes_refuted m a b x : s_fit m = Some ([a], [b]) -> Forall (fun r => List.length a = List.length r) x -> svm_predict m SCatPost x = Ok (map (fun _ => [1]) x).
Proof. intros E F. rewrite predict_E with (coef := [a]) (int := [b]); [|exact E|split; [reflexivity|eapply Forall_impl; [|exact F]; intros r H; repeat constructor; exact H]].
  apply mapM_pure. intros r _. cbn [decision map combine post_of fst snd]. set (v := dotr a r + _). destruct (C63_softmax [v]) as (p & -> & -> & _); [discriminate|]. f_equal. cbn. f_equal.
  unfold sum_exp, Rsum. cbn. assert (P := exp_pos v). field. lra. Qed.
(** before training there is nothing to evaluate or save *)
Theorem C114_untrained m e x : s_fit m = None -> svm_predict m e x = Err AttributeError /\ svm_reload m = Err AttributeError.
Proof. intro E. unfold svm_predict, svm_reload, svm_A. rewrite E. split; reflexivity. Qed.
Print Assumptions C114_decision. Print Assumptions C114_scaling. Print Assumptions C114_reload. Print Assumptions C114_bin_post. Print Assumptions C114_cat_post. Print Assumptions C114_two_classes_refuted.
Example C114_witness : fits [[1; 2]; [3; 4]] [5; 6] [[1; 1]; [0; 2]]. Proof. split; [reflexivity|]. repeat constructor. Qed.
