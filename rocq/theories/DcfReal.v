(** compute_act_dcf with real scores and the actual log-odds thresholds. *)
From Coq Require Import QArith Reals Qreals Lra Lqa.
From Verif Require Import Metrics MetricsSpec DcfProps.
Open Scope list_scope.

Definition rleb (x y : R) : bool := if Rle_dec x y then true else false.
Lemma rleb_iff x y : rleb x y = true <-> (x <= y)%R.
Proof. unfold rleb. destruct (Rle_dec x y); split; intros; try assumption; try reflexivity; try discriminate; contradiction. Qed.
#[global] Program Instance Ord_R : Ord R := { leb := rleb }.
Next Obligation. rewrite !rleb_iff. destruct (Rle_dec x y); [left; assumption|right; apply Rlt_le, Rnot_le_lt; assumption]. Qed.
Next Obligation. rewrite rleb_iff in *. eapply Rle_trans; eassumption. Qed.
Next Obligation. rewrite rleb_iff in *. apply Rle_antisym; assumption. Qed.

(** dcf.py:101: t = -log(prior) + log(1-prior) *)
Definition log_odds (p : Q) : R := (- ln (Q2R p) + ln (1 - Q2R p))%R.

(** accept iff the expected cost of accepting is not larger than that of rejecting, for a log-likelihood ratio s *)
Lemma bayes_rule p s : (0 < p)%Q -> (p < 1)%Q -> (rejects (At (log_odds p)) s = true <-> exp s * Q2R p < 1 - Q2R p)%R.
Proof.
  intros P1 P2. apply Qlt_Rlt in P1, P2. rewrite RMicromega.Q2R_0 in P1. rewrite RMicromega.Q2R_1 in P2. cbn [rejects]. unfold ltb. rewrite negb_true_iff.
  assert (E : leb (log_odds p) s = false <-> (s < log_odds p)%R). { cbn [leb Ord_R]. split; [intros X; apply Rnot_le_lt; intros Y; apply rleb_iff in Y; congruence|]. intros X. destruct (rleb (log_odds p) s) eqn:Y; [apply rleb_iff in Y; exfalso; apply (Rlt_not_le _ _ X Y)|reflexivity]. }
  rewrite E. unfold log_odds. split.
  - intros L. assert (X : (exp s < exp (- ln (Q2R p) + ln (1 - Q2R p)))%R) by (apply exp_increasing; exact L). rewrite exp_plus, exp_Ropp, !exp_ln in X by Lra.lra.
    apply (Rmult_lt_compat_r (Q2R p)) in X; [|exact P1]. replace (/ Q2R p * (1 - Q2R p) * Q2R p)%R with (1 - Q2R p)%R in X by (field; Lra.lra). exact X.
  - intros L. apply exp_lt_inv. rewrite exp_plus, exp_Ropp, !exp_ln by Lra.lra. apply (Rmult_lt_reg_r (Q2R p)); [exact P1|]. replace (/ Q2R p * (1 - Q2R p) * Q2R p)%R with (1 - Q2R p)%R by (field; Lra.lra). exact L.
Qed.

Lemma log_odds_decreasing p q : (0 < p)%Q -> (q < 1)%Q -> (p < q)%Q -> ltb (log_odds q) (log_odds p) = true.
Proof.
  intros P Q L. apply Qlt_Rlt in P, Q, L. rewrite RMicromega.Q2R_0 in P. rewrite RMicromega.Q2R_1 in Q. unfold ltb. apply negb_true_iff. cbn [leb Ord_R]. destruct (rleb (log_odds p) (log_odds q)) eqn:E; [|reflexivity]. apply rleb_iff in E. exfalso. unfold log_odds in E.
  assert (A : (ln (Q2R p) < ln (Q2R q))%R) by (apply ln_increasing; assumption). assert (B : (ln (1 - Q2R q) < ln (1 - Q2R p))%R) by (apply ln_increasing; Lra.lra). Lra.lra.
Qed.

(** For increasing priors strictly between 0 and 1 and real scores read as log-likelihood ratios, the miss rate
    is the fraction of targets, and the false alarm rate that of non-targets, for which the minimum expected
    cost (Bayes) decision is to reject, respectively to accept. *)
Theorem C37_act_dcf_bayes : forall (tar non : list R) priors normalize, tar <> [] -> non <> [] ->
  (forall i j p q, (i < j)%nat -> nth_error priors i = Some p -> nth_error priors j = Some q -> (p < q)%Q) ->
  (forall p, In p priors -> (0 < p /\ p < 1)%Q) ->
  exists act p_miss p_fa, compute_act_dcf log_odds tar non priors normalize = Ok (act, p_miss, p_fa) /\
    List.length act = List.length priors /\
    forall j p (bayes_rejects : R -> bool), nth_error priors j = Some p -> (forall s, bayes_rejects s = true <-> (exp s * Q2R p < 1 - Q2R p)%R) ->
      exists d m f, nth_error act j = Some d /\ nth_error p_miss j = Some m /\ nth_error p_fa j = Some f /\
        (m == ratio (List.length (filter bayes_rejects tar)) (List.length tar) /\
         f == ratio (List.length (filter (fun s => negb (bayes_rejects s)) non)) (List.length non) /\ d == cost p normalize m f)%Q.
Proof.
  intros tar non priors n NT NN Inc Rng. destruct (C37_act_dcf R Ord_R log_odds tar non priors n NT NN Inc) as (act & pm & pf & E & LA & LM & LF & Hj).
  { intros p q Ip Iq L. apply log_odds_decreasing; [apply Rng, Ip|apply Rng, Iq|exact L]. }
  exists act, pm, pf. split; [exact E|]. split; [exact LA|]. intros j p br P B. destruct (Hj j p P) as (d & m & f & A1 & A2 & A3 & A4 & A5 & A6). exists d, m, f. split; [exact A1|]. split; [exact A2|]. split; [exact A3|].
  destruct (Rng p (nth_error_In _ _ P)) as (P1 & P2).
  assert (EB : forall s, br s = rejects (At (log_odds p)) s). { intros s. pose proof (bayes_rule p s P1 P2) as X. specialize (B s). destruct (br s), (rejects (At (log_odds p)) s); try reflexivity; [symmetry; apply X, B; reflexivity|apply B, X; reflexivity]. }
  split; [|split].
  - rewrite A4. unfold miss_rate. rewrite (filter_ext _ _ EB). reflexivity.
  - rewrite A5. unfold fa_rate. rewrite (filter_ext (fun s => negb (br s)) (fun s => negb (rejects (At (log_odds p)) s))) by (intros s; rewrite EB; reflexivity). reflexivity.
  - rewrite A6, A4, A5. reflexivity.
Qed.

Example C37_bayes_witness : forall i j p q, (i < j)%nat -> nth_error [1 # 10; 1 # 2; 9 # 10]%Q i = Some p -> nth_error [1 # 10; 1 # 2; 9 # 10]%Q j = Some q -> (p < q)%Q.
Proof. intros [|[|[|i]]] [|[|[|j]]] p q L P Q; try (exfalso; apply Nat.lt_irrefl with 0%nat; Lia.lia); cbn in P, Q; try discriminate; try (injection P as <-; injection Q as <-; reflexivity); try (destruct i; discriminate); destruct j; discriminate. Qed.
Print Assumptions C37_act_dcf_bayes.
