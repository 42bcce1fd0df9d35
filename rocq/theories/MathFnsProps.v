(** C63: softmax, log-sum-exp and sigmoids (hyperion/utils/math.py). *)
From Coq Require Import Reals Lra Lia.
From Verif Require Import Base BaseFacts MathFns.
Open Scope list_scope.
Open Scope R_scope.

(** ** Specification *)
Definition sum_exp (r : list R) : R := fold_right (fun v s => exp v + s) 0 r.
Definition logistic (x : R) : R := / (1 + exp (- x)).

(** ** Lemmas *)
Lemma Rsum_map_mul c l : Rsum (map (fun v => v * c) l) = Rsum l * c.
Proof. unfold Rsum. induction l as [|x l IH]; simpl; [ring|]. rewrite IH. ring. Qed.
Lemma Rsum_shift m r : Rsum (map (fun v => exp (v - m)) r) = sum_exp r * exp (- m).
Proof. unfold Rsum, sum_exp. induction r as [|x r IH]; simpl; [ring|]. rewrite IH. replace (x - m) with (x + - m) by ring. rewrite exp_plus. ring. Qed.
Lemma sum_exp_pos r : r <> [] -> 0 < sum_exp r.
Proof.
  intros N. destruct r as [|x r]; [congruence|]. unfold sum_exp. simpl. pose proof (exp_pos x).
  assert (0 <= fold_right (fun v s => exp v + s) 0 r). { clear. induction r as [|y r IH]; simpl; [lra|]. pose proof (exp_pos y). lra. } lra.
Qed.
Lemma max_ok l : l <> [] -> exists m, Rmaximum l = Ok m /\ In m l /\ forall x, In x l -> x <= m.
Proof.
  destruct l as [|x l]; [congruence|]. intros _. simpl. exists (fold_left Rmax l x). split; [reflexivity|].
  assert (H : forall l x, (fold_left Rmax l x = x \/ In (fold_left Rmax l x) l) /\ x <= fold_left Rmax l x /\ forall y, In y l -> y <= fold_left Rmax l x).
  { clear. induction l as [|y l IH]; intros x; simpl; [split; [left; reflexivity|split; [lra|tauto]]|]. destruct (IH (Rmax x y)) as (A & B & C).
    pose proof (Rmax_l x y). pose proof (Rmax_r x y). split; [|split].
    - destruct A as [A|A]; [|tauto]. rewrite A. destruct (Rle_dec x y) as [L|L]; [rewrite Rmax_right by exact L; tauto|rewrite Rmax_left by lra; tauto].
    - lra.
    - intros z [<-|Z]; [lra|exact (C z Z)]. }
  destruct (H l x) as (A & B & C). split; [destruct A as [->|A]; tauto|]. intros y [<-|Y]; [exact B|exact (C y Y)].
Qed.
Lemma sum_exp_ge r m : In m r -> exp m <= sum_exp r.
Proof.
  unfold sum_exp. induction r as [|x r IH]; intros H; [destruct H|]. simpl. destruct H as [->|H].
  - assert (0 <= fold_right (fun v s => exp v + s) 0 r). { clear. induction r as [|y r IH]; simpl; [lra|]. pose proof (exp_pos y). lra. } lra.
  - specialize (IH H). pose proof (exp_pos x). lra.
Qed.
Lemma Rmax_plus x y c : Rmax (x + c) (y + c) = Rmax x y + c.
Proof. unfold Rmax. destruct (Rle_dec (x + c) (y + c)), (Rle_dec x y); lra. Qed.
Lemma max_shift c r : r <> [] -> exists m, Rmaximum r = Ok m /\ Rmaximum (map (fun v => v + c) r) = Ok (m + c).
Proof.
  destruct r as [|x l]; [congruence|]. intros _. exists (fold_left Rmax l x). split; [reflexivity|]. simpl. f_equal.
  revert x. induction l as [|y l IH]; intros x; simpl; [reflexivity|]. rewrite Rmax_plus. apply IH.
Qed.
Lemma eps_pos : 0 < eps. Proof. unfold eps. apply Rinv_0_lt_compat. apply pow_lt. lra. Qed.
Lemma ln_1p_le t : 0 <= t -> 0 <= ln (1 + t) <= t.
Proof.
  intros T. split.
  - rewrite <- ln_1. destruct T as [T|<-]; [left; apply ln_increasing; lra|right; f_equal; ring].
  - rewrite <- (ln_exp t) at 2. destruct T as [T|<-].
    + left. apply ln_increasing; [lra|]. apply exp_ineq1. lra.
    + right. f_equal. rewrite exp_0. ring.
Qed.

(** ** Theorems *)
(** softmax of a non-empty vector: exp(r_i) / sum of the exp(r_j), whatever the size of the entries; the result is a probability
    vector. *)
Theorem C63_softmax r : r <> [] -> exists p, softmax r = Ok p /\ p = map (fun v => exp v / sum_exp r) r /\
  Rsum p = 1 /\ Forall (fun v => 0 < v <= 1) p.
Proof.
  intros N. destruct (max_ok r N) as (m & M1 & _ & _). unfold softmax. rewrite M1. cbn [bind]. eexists. split; [reflexivity|].
  assert (P : 0 < sum_exp r) by (apply sum_exp_pos, N). rewrite Rsum_shift, map_map.
  assert (E : map (fun v => exp (v - m) / (sum_exp r * exp (- m))) r = map (fun v => exp v / sum_exp r) r).
  { apply map_ext. intros v. replace (v - m) with (v + - m) by ring. rewrite exp_plus. pose proof (exp_pos (- m)). field. lra. }
  rewrite E. split; [reflexivity|]. split.
  - assert (S : forall c r, Rsum (map (fun v => exp v / c) r) = sum_exp r / c).
    { clear. intros c r. unfold Rsum, sum_exp, Rdiv. induction r as [|x r IH]; simpl; [ring|]. rewrite IH. ring. }
    rewrite S. field. lra.
  - apply Forall_forall. intros q Q. apply in_map_iff in Q. destruct Q as (v & <- & V). pose proof (exp_pos v). pose proof (sum_exp_ge r v V). split.
    + apply Rdiv_lt_0_compat; assumption.
    + apply Rmult_le_reg_r with (sum_exp r); [exact P|]. unfold Rdiv. rewrite Rmult_assoc, Rinv_l by lra. lra.
Qed.
(** adding a constant to all the entries changes nothing, and the order of the entries is kept *)
Theorem C63_softmax_shift c r : softmax (map (fun v => v + c) r) = softmax r.
Proof.
  destruct r as [|x l] eqn:E; [reflexivity|]. rewrite <- E. assert (N : r <> []) by (rewrite E; discriminate). clear E.
  destruct (max_shift c r N) as (m & M1 & M2). unfold softmax. rewrite M1, M2. cbn [bind]. rewrite !map_map.
  assert (H : map (fun v => exp (v + c - (m + c))) r = map (fun v => exp (v - m)) r) by (apply map_ext; intros v; f_equal; ring).
  rewrite H. f_equal. apply map_ext. intros v. do 2 f_equal. ring.
Qed.
Theorem C63_softmax_order r p i j a b u v : softmax r = Ok p -> nth_error r i = Some a -> nth_error r j = Some b -> nth_error p i = Some u -> nth_error p j = Some v ->
  (a <= b <-> u <= v).
Proof.
  intros S A B U V. assert (N : r <> []) by (intros ->; destruct i; discriminate A). destruct (C63_softmax r N) as (p' & P1 & P2 & _). rewrite S in P1. injection P1 as <-.
  rewrite P2, nth_error_map, A in U. rewrite P2, nth_error_map, B in V. injection U as <-. injection V as <-. pose proof (sum_exp_pos r N) as P.
  split; intros H.
  - apply Rmult_le_compat_r; [left; apply Rinv_0_lt_compat, P|]. destruct H as [H| ->]; [left; apply exp_increasing, H|right; reflexivity].
  - apply Rmult_le_reg_r in H; [|apply Rinv_0_lt_compat, P]. destruct (Rle_dec a b) as [L|L]; [exact L|]. pose proof (exp_increasing b a ltac:(lra)). lra.
Qed.
Example C63_softmax_witness : [0; ln 3] <> [] /\ map (fun v => exp v / sum_exp [0; ln 3]) [0; ln 3] = [/ 4; 3 / 4].
Proof. split; [discriminate|]. unfold sum_exp. simpl. rewrite exp_0, exp_ln by lra. repeat f_equal; lra. Qed.

(** log-sum-exp: never below the true value, above it by at most 1e-20 *)
Theorem C63_logsumexp r : r <> [] -> exists y, logsumexp r = Ok y /\ ln (sum_exp r) <= y <= ln (sum_exp r) + / 10 ^ 20.
Proof.
  intros N. destruct (max_ok r N) as (m & M1 & M2 & M3). unfold logsumexp. rewrite M1. cbn [bind]. eexists. split; [reflexivity|].
  rewrite Rsum_shift. pose proof (sum_exp_pos r N) as P. pose proof (sum_exp_ge r m M2) as G. pose proof (exp_pos (- m)) as Q. pose proof eps_pos as EP.
  assert (S1 : 1 <= sum_exp r * exp (- m)). { rewrite <- exp_0. replace 0 with (m + - m) by ring. rewrite exp_plus. apply Rmult_le_compat_r; lra. }
  set (S := sum_exp r * exp (- m)) in *.
  assert (LS : ln S = ln (sum_exp r) - m). { unfold S. rewrite ln_mult by assumption. rewrite ln_exp. ring. }
  assert (E : ln (S + eps) = ln S + ln (1 + eps / S)). { rewrite <- ln_mult; [f_equal; field; lra|lra|]. assert (0 < eps / S) by (apply Rdiv_lt_0_compat; lra). lra. }
  assert (T : 0 <= eps / S <= eps). { split; [left; apply Rdiv_lt_0_compat; lra|]. apply Rmult_le_reg_r with S; [lra|]. unfold Rdiv. rewrite Rmult_assoc, Rinv_l by lra. nra. }
  pose proof (ln_1p_le (eps / S) (proj1 T)). rewrite E, LS. fold eps. lra.
Qed.
Theorem C63_logsumexp_shift c r y : logsumexp r = Ok y -> logsumexp (map (fun v => v + c) r) = Ok (y + c).
Proof.
  intros H. assert (N : r <> []) by (intros ->; discriminate H). destruct (max_shift c r N) as (m & M1 & M2). unfold logsumexp in *. rewrite M1 in H. rewrite M2. cbn [bind] in *. injection H as <-.
  rewrite map_map. assert (E : map (fun v => exp (v + c - (m + c))) r = map (fun v => exp (v - m)) r) by (apply map_ext; intros v; f_equal; ring). rewrite E. f_equal. ring.
Qed.
Theorem C63_empty : softmax [] = Err ValueError /\ logsumexp [] = Err ValueError.
Proof. split; reflexivity. Qed.
Example C63_logsumexp_witness : [1000; 1000] <> [] /\ ln (sum_exp [1000; 1000]) = 1000 + ln 2.
Proof.
  split; [discriminate|]. unfold sum_exp. simpl. replace (exp 1000 + (exp 1000 + 0)) with (exp 1000 * 2) by ring. rewrite ln_mult by (try apply exp_pos; lra). rewrite ln_exp. reflexivity.
Qed.

Lemma exp_100 : 0 < exp (-100) < / 100.
Proof.
  split; [apply exp_pos|]. rewrite <- (Ropp_involutive (-100)), exp_Ropp. apply Rinv_lt_contravar.
  - apply Rmult_lt_0_compat; [lra|apply exp_pos].
  - replace (- -100) with 100 by ring. pose proof (exp_ineq1 100 ltac:(lra)). lra.
Qed.
Lemma logistic_ln x : ln (logistic x) = - ln (1 + exp (- x)).
Proof. unfold logistic. pose proof (exp_pos (- x)). rewrite ln_Rinv by lra. reflexivity. Qed.
Lemma softplus_neg x : ln (1 + exp (- x)) = - x + ln (1 + exp x).
Proof.
  pose proof (exp_pos (- x)). pose proof (exp_pos x).
  replace (1 + exp (- x)) with (exp (- x) * (1 + exp x)). { rewrite ln_mult by lra. rewrite ln_exp. reflexivity. }
  rewrite Rmult_plus_distr_l, <- exp_plus. replace (- x + x) with 0 by ring. rewrite exp_0. ring.
Qed.

(** the sigmoids are within exp(-100) of the true functions (exactly equal from -100 on) *)
Theorem C63_logsigmoid x : Rabs (logsigmoid x - ln (logistic x)) <= exp (-100) /\ (-100 <= x -> logsigmoid x = ln (logistic x)) /\
  neglogsigmoid x = - logsigmoid x /\ logsigmoid x < 0.
Proof.
  rewrite logistic_ln. unfold logsigmoid, neglogsigmoid. pose proof (exp_pos (- x)) as P1. pose proof (exp_pos x) as P2. destruct (Rlt_dec x (-100)) as [L|L].
  - split; [|split; [lra|split; [ring|lra]]]. rewrite softplus_neg. pose proof (ln_1p_le (exp x) ltac:(lra)) as B. pose proof (exp_increasing x (-100) L).
    rewrite Rabs_right by lra. lra.
  - split; [|split; [reflexivity|split; [ring|]]].
    + replace (_ - _) with 0 by ring. rewrite Rabs_R0. left. apply exp_pos.
    + assert (0 < ln (1 + exp (- x))); [|lra]. rewrite <- ln_1. apply ln_increasing; lra.
Qed.
Theorem C63_sigmoid x : Rabs (sigmoid x - logistic x) <= exp (-100) /\ (-100 <= x -> sigmoid x = logistic x) /\ 0 <= sigmoid x < 1.
Proof.
  unfold sigmoid, logistic. pose proof (exp_pos (- x)) as P1. assert (Q : 0 < / (1 + exp (- x)) < 1). { split; [apply Rinv_0_lt_compat; lra|]. rewrite <- Rinv_1. apply Rinv_lt_contravar; lra. }
  destruct (Rlt_dec x (-100)) as [L|L].
  - split; [|split; [lra|lra]]. replace (0 - _) with (- / (1 + exp (- x))) by ring. rewrite Rabs_Ropp, Rabs_right by lra.
    apply Rle_trans with (/ exp (- x)); [apply Rinv_le_contravar; lra|]. rewrite exp_Ropp, Rinv_inv. left. apply exp_increasing. exact L.
  - split; [|split]; [|intros _; unfold Rdiv; ring|].
    + replace (1 / _ - _) with 0 by (unfold Rdiv; ring). rewrite Rabs_R0. left. apply exp_pos.
    + replace (1 / (1 + exp (- x))) with (/ (1 + exp (- x))) by (unfold Rdiv; ring). lra.
Qed.
Theorem C63_sigmoid_monotone x y : x <= y -> sigmoid x <= sigmoid y.
Proof.
  intros H. destruct (C63_sigmoid y) as (_ & _ & Y). unfold sigmoid at 1. destruct (Rlt_dec x (-100)) as [L|L]; [lra|]. unfold sigmoid. destruct (Rlt_dec y (-100)) as [L2|L2]; [lra|].
  pose proof (exp_pos (- y)). unfold Rdiv. rewrite !Rmult_1_l. apply Rinv_le_contravar; [lra|]. destruct H as [H| ->]; [|lra]. pose proof (exp_increasing (- y) (- x) ltac:(lra)). lra.
Qed.
Example C63_sigmoid_witness : sigmoid 0 = / 2 /\ sigmoid (-101) = 0 /\ logsigmoid (-101) = -101.
Proof.
  unfold sigmoid, logsigmoid. destruct (Rlt_dec 0 (-100)); [lra|]. destruct (Rlt_dec (-101) (-100)); [|lra]. rewrite Ropp_0, exp_0. split; [field|split; reflexivity].
Qed.
Print Assumptions C63_softmax. Print Assumptions C63_logsumexp. Print Assumptions C63_logsigmoid. Print Assumptions C63_sigmoid_monotone.
