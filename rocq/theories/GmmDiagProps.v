(** Mixtures of diagonal Normal distributions (C71). *)
From Coq Require Import Reals Lra Lia Psatz.
From Verif Require Import Base BaseFacts MathFns MathFnsProps ScoreNorm ScoreNormProps NormalDiag NormalDiagProps GmmDiag.
Open Scope list_scope. Open Scope R_scope.

(** ** Specification *)
Definition prodn (d : nat) (f : nat -> R) : R := fold_right Rmult 1 (map f (seq 0 d)).
(** density of one component: independent Normal coordinates (see C70); density of the mixture with weights wt *)
Definition comp_dens (d : nat) (mu L : nat -> R) (x : nat -> R) : R := prodn d (fun j => gauss (mu j) (L j) (x j)).
Definition mix_dens (K d : nat) (wt : nat -> R) (mu L : nat -> nat -> R) (x : nat -> R) : R := sumn K (fun k => wt k * comp_dens d (mu k) (L k) x).
(** posterior probability of component k *)
Definition resp (K d : nat) (wt : nat -> R) (mu L : nat -> nat -> R) (k : nat) (x : nat -> R) : R := wt k * comp_dens d (mu k) (L k) x / mix_dens K d wt mu L x.
(** the weights an object computes with: those of the first time they were needed *)
Definition used (g : gmm) (k : nat) : R := match g_logpi g with Some v => exp (v k) | None => g_pi g k + / 10 ^ 15 end.
(** row weights multiplied by a function of the row *)
Definition reweight {X} (x : list X) (w : option (list R)) (z : X -> R) : option (list R) := Some (map (fun rv => snd rv * z (fst rv)) (combine x (weights x w))).
(** objects made by the constructor with weights >= 0, by reading the cached properties, and by M-steps with positive counts after which
    the variances are positive *)
Inductive g_made (K d : nat) : gmm -> Prop :=
| gm_new pi mu L fl mn up um ul g : (forall k, (k < K)%nat -> 0 <= pi k) -> g_new K d pi mu L fl mn up um ul = Ok g -> g_made K d g
| gm_logpi g : g_made K d g -> g_made K d (snd (get_logpi g))
| gm_logL g : g_made K d g -> g_made K d (snd (get_glogL g))
| gm_chol g : g_made K d g -> g_made K d (snd (get_gchol g))
| gm_mstep g N u g' : g_made K d g -> (forall k, (k < K)%nat -> 0 < N k) -> g_mstep g N u = Ok (Some g') -> (forall k j, (k < K)%nat -> (j < d)%nat -> 0 < g_L g' k j) -> g_made K d g'.

(** ** Proofs *)
Lemma sum_exp_sum r : sum_exp r = Rsum (map exp r).
Proof. unfold sum_exp. induction r as [|v r IH]; [reflexivity|]. simpl. rewrite IH. reflexivity. Qed.
Lemma exp_sumn d f : exp (sumn d f) = prodn d (fun j => exp (f j)).
Proof. unfold sumn, prodn. generalize (seq 0 d) as l. induction l as [|j l IH]; simpl; [apply exp_0|]. rewrite exp_plus, IH. reflexivity. Qed.
Lemma prodn_ext d f g : (forall j, (j < d)%nat -> f j = g j) -> prodn d f = prodn d g.
Proof. intros H. unfold prodn. f_equal. apply map_ext_in. intros j J. apply in_seq in J. apply H. lia. Qed.
Lemma gauss_pos m l x : 0 < l -> 0 < gauss m l x.
Proof. intros L. unfold gauss. apply Rmult_lt_0_compat; [apply sqrt_lt_R0, Rdiv_lt_0_compat; [exact L|apply two_pi_pos]|apply exp_pos]. Qed.
Lemma comp_exp d mu L x : (forall j, (j < d)%nat -> 0 < L j) -> exp (log_lik d mu L x) = comp_dens d mu L x.
Proof. intros P. unfold log_lik, comp_dens. rewrite exp_sumn. apply prodn_ext. intros j J. apply exp_ln, gauss_pos, P. exact J. Qed.
Lemma comp_pos d mu L x : (forall j, (j < d)%nat -> 0 < L j) -> 0 < comp_dens d mu L x.
Proof. intros P. rewrite <- comp_exp by exact P. apply exp_pos. Qed.
Lemma ln_comp d mu L x : (forall j, (j < d)%nat -> 0 < L j) -> ln (comp_dens d mu L x) = log_lik d mu L x.
Proof. intros P. rewrite <- comp_exp by exact P. apply ln_exp. Qed.
Lemma sumn_S K f : sumn (S K) f = sumn K f + f K.
Proof. unfold sumn. rewrite seq_S, map_app, Rsum_app. simpl. ring. Qed.
Lemma sumn_nonneg K f : (forall k, (k < K)%nat -> 0 <= f k) -> 0 <= sumn K f.
Proof. intros H. replace 0 with (sumn K (fun _ => 0)) by (rewrite sumn_const; ring). apply sumn_le. exact H. Qed.
Lemma sumn_pos K f : (0 < K)%nat -> (forall k, (k < K)%nat -> 0 < f k) -> 0 < sumn K f.
Proof. intros HK H. destruct K as [|K]; [lia|]. rewrite sumn_S. assert (0 <= sumn K f) by (apply sumn_nonneg; intros; left; apply H; lia). specialize (H K ltac:(lia)). lra. Qed.
Lemma mix_pos K d wt mu L x : (0 < K)%nat -> (forall k, (k < K)%nat -> 0 < wt k) -> (forall k j, (k < K)%nat -> (j < d)%nat -> 0 < L k j) -> 0 < mix_dens K d wt mu L x.
Proof. intros HK W P. apply sumn_pos; [exact HK|]. intros k Hk. apply Rmult_lt_0_compat; [auto|apply comp_pos; auto]. Qed.

Definition GInv (K d : nat) (g : gmm) : Prop := g_K g = K /\ g_d g = d /\
  (forall k j, (k < K)%nat -> (j < d)%nat -> 0 < g_L g k j) /\
  (forall k, (k < K)%nat -> eta_of d (g_eta g k) (g_mu g k) (g_L g k) /\ g_A g k = A_nat d (g_eta g k)) /\
  (forall v, g_logL g = Some v -> forall k, (k < K)%nat -> v k = sumn d (fun j => ln (g_L g k j))) /\
  (forall v, g_chol g = Some v -> forall k j, (k < K)%nat -> (j < d)%nat -> v k j = sqrt (g_L g k j)) /\
  (forall k, (k < K)%nat -> 0 < used g k).
Lemma pi_eps_pos : 0 < / 10 ^ 15.
Proof. apply Rinv_0_lt_compat, pow_lt. lra. Qed.
Lemma get_logpi_facts g : let g' := snd (get_logpi g) in g_K g' = g_K g /\ g_d g' = g_d g /\ g_mu g' = g_mu g /\ g_L g' = g_L g /\ g_eta g' = g_eta g /\ g_A g' = g_A g /\
  g_logL g' = g_logL g /\ g_chol g' = g_chol g /\ g_pi g' = g_pi g /\ g_floor g' = g_floor g /\ g_minN g' = g_minN g /\ g_updpi g' = g_updpi g /\ g_updmu g' = g_updmu g /\ g_updL g' = g_updL g /\
  g_sigma g' = g_sigma g /\ g_logpi g' = Some (fst (get_logpi g)).
Proof. unfold get_logpi. destruct (g_logpi g) eqn:E; simpl; repeat (split; [reflexivity|]); [exact E|reflexivity]. Qed.
Lemma used_logpi g k : 0 < used g k -> used (snd (get_logpi g)) k = used g k /\ exp (fst (get_logpi g) k) = used g k.
Proof.
  intros P. assert (Q : exp (fst (get_logpi g) k) = used g k). { unfold get_logpi, used in *. destruct (g_logpi g); [reflexivity|]. simpl. unfold pi_eps. apply exp_ln. exact P. }
  split; [|exact Q]. rewrite <- Q. unfold used at 1. destruct (get_logpi_facts g) as (_ & _ & _ & _ & _ & _ & _ & _ & _ & _ & _ & _ & _ & _ & _ & ->). reflexivity.
Qed.
Lemma all_pos2_ok K d L : all_pos2 K d L = true <-> forall k j, (k < K)%nat -> (j < d)%nat -> 0 < L k j.
Proof.
  unfold all_pos2. rewrite forallb_forall. split.
  - intros H k j Hk. specialize (H k ltac:(apply in_seq; lia)). exact (proj1 (all_pos_ok d (L k)) H j).
  - intros H k Hk. apply in_seq in Hk. apply (proj2 (all_pos_ok d (L k))). intros j J. apply H; lia.
Qed.
Lemma ginv_logpi K d g : GInv K d g -> GInv K d (snd (get_logpi g)).
Proof.
  intros (I1 & I2 & I3 & I4 & I5 & I6 & I7). destruct (get_logpi_facts g) as (F1 & F2 & F3 & F4 & F5 & F6 & F7 & F8 & _). unfold GInv. rewrite F1, F2, F3, F4, F5, F6, F7, F8. repeat (split; [assumption|]).
  intros k Hk. destruct (used_logpi g k (I7 k Hk)) as [-> _]. auto.
Qed.
Lemma mstep_facts g N u g' : g_mstep g N u = Ok (Some g') ->
  let mu := if g_updmu g then fun k j => u k j / N k else g_mu g in
  let S0 := fun k j => u k (g_d g + j)%nat / N k - mu k j * mu k j in
  g_K g' = g_K g /\ g_d g' = g_d g /\ g_mu g' = mu /\
  g_L g' = (if g_updL g then fun k j => 1 / Rmax (S0 k j) (s_floor (g_K g) (g_floor g) (g_minN g) N S0 j) else g_L g) /\
  g_eta g' = (fun k => compute_eta (g_d g) (g_mu g' k) (g_L g' k)) /\ g_A g' = (fun k => A_nat (g_d g) (g_eta g' k)) /\ g_logpi g' = g_logpi g /\
  g_logL g' = (if g_updL g then None else g_logL g) /\ g_chol g' = (if g_updL g then None else g_chol g) /\ g_pi g' = (if g_updpi g then fun k => N k / sumn (g_K g) N else g_pi g) /\
  g_floor g' = g_floor g /\ g_minN g' = g_minN g /\ g_updpi g' = g_updpi g /\ g_updmu g' = g_updmu g /\ g_updL g' = g_updL g /\
  (forall k, (k < g_K g)%nat -> N k <> 0).
Proof.
  unfold g_mstep. destruct (existsb _ (seq 0 (g_K g))) eqn:Z; [discriminate|]. destruct (g_updL g && _); [discriminate|]. cbv zeta. cbn [g_nat]. intros H.
  assert (NZ : forall k, (k < g_K g)%nat -> N k <> 0). { intros k Hk E. enough (existsb (fun k => if Req_EM_T (N k) 0 then true else false) (seq 0 (g_K g)) = true) by congruence. apply existsb_exists. exists k. split; [apply in_seq; lia|]. destruct (Req_EM_T (N k) 0); [reflexivity|contradiction]. }
  destruct (g_updpi g) eqn:UP.
  - match type of H with (if ?c then _ else _) = _ => destruct c; [discriminate|] end. injection H as <-. cbn [g_K g_d g_mu g_L g_eta g_A g_logpi g_logL g_chol g_pi g_floor g_minN g_updpi g_updmu g_updL]. repeat (split; [reflexivity|]). exact NZ.
  - injection H as <-. cbn [g_K g_d g_mu g_L g_eta g_A g_logpi g_logL g_chol g_pi g_floor g_minN g_updpi g_updmu g_updL]. repeat (split; [reflexivity|]). exact NZ.
Qed.
Lemma used_mstep K g N u g' k : g_K g = K -> (forall k, (k < K)%nat -> 0 < N k) -> (k < K)%nat -> 0 < used g k -> g_mstep g N u = Ok (Some g') -> 0 < used g' k.
Proof.
  intros EK PN Hk P M. destruct (mstep_facts g N u g' M) as (_ & _ & _ & _ & _ & _ & F1 & _ & _ & F2 & _). unfold used in *. rewrite F1, F2. destruct (g_logpi g); [exact P|]. destruct (g_updpi g); [|exact P].
  pose proof pi_eps_pos. assert (0 < sumn (g_K g) N) by (rewrite EK; apply sumn_pos; [lia|exact PN]). assert (0 < N k / sumn (g_K g) N) by (apply Rdiv_lt_0_compat; auto). lra.
Qed.
Lemma g_made_inv K d g : g_made K d g -> GInv K d g.
Proof.
  induction 1 as [pi mu L fl mn up um ul g P H|g M IH|g M IH|g M IH|g N u g' M IH PN H PL].
  - unfold g_new in H. destruct (all_pos2 K d L) eqn:AP; [|discriminate]. cbn [g_nat] in H. injection H as <-. pose proof (proj1 (all_pos2_ok K d L) AP) as Q. split; [reflexivity|]. split; [reflexivity|]. split; [exact Q|].
    split; [intros k Hk; split; [intros j _; reflexivity|reflexivity]|]. split; [intros v V; discriminate|]. split; [intros v V; discriminate|]. intros k Hk. unfold used. simpl. pose proof pi_eps_pos. specialize (P k Hk). simpl in *. lra.
  - apply ginv_logpi. exact IH.
  - unfold get_glogL. destruct (g_logL g) eqn:E; [exact IH|]. simpl. destruct IH as (I1 & I2 & I3 & I4 & I5 & I6 & I7). repeat (split; [assumption|]). split; [|split; [exact I6|exact I7]].
    intros v V k Hk. injection V as <-. rewrite I2. reflexivity.
  - unfold get_gchol. destruct (g_chol g) eqn:E; [exact IH|]. simpl. destruct IH as (I1 & I2 & I3 & I4 & I5 & I6 & I7). repeat (split; [assumption|]). split; [|exact I7].
    intros v V k j Hk J. injection V as <-. reflexivity.
  - destruct IH as (I1 & I2 & I3 & I4 & I5 & I6 & I7). pose proof (mstep_facts g N u g' H) as (F1 & F2 & F3 & F4 & F5 & F6 & F7 & F8 & F9 & F10 & _). split; [congruence|]. split; [congruence|]. split; [exact PL|].
    split; [intros k Hk; rewrite F5, F6, I2; split; [intros j _; reflexivity|rewrite F5, I2; reflexivity]|]. rewrite F4, F8, F9. destruct (g_updL g).
    + split; [intros v V; discriminate|]. split; [intros v V; discriminate|]. intros k Hk. exact (used_mstep K g N u g' k I1 PN Hk (I7 k Hk) H).
    + split; [exact I5|]. split; [exact I6|]. intros k Hk. exact (used_mstep K g N u g' k I1 PN Hk (I7 k Hk) H).
Qed.
(** the log joint densities *)
Lemma logr_eq K d g (x : nat -> R) : GInv K d g -> logr (snd (get_logpi g)) (fst (get_logpi g)) (suff d x) = map (fun k => ln (used g k * comp_dens d (g_mu g k) (g_L g k) x)) (seq 0 K).
Proof.
  intros (I1 & I2 & I3 & I4 & I5 & I6 & I7). destruct (get_logpi_facts g) as (F1 & F2 & F3 & F4 & F5 & F6 & _). unfold logr. rewrite F1, F2, F5, F6, I1, I2. apply map_ext_in. intros k Hk. apply in_seq in Hk. assert (HK : (k < K)%nat) by lia.
  destruct (I4 k HK) as [E ->]. assert (P : forall j, (j < d)%nat -> 0 < g_L g k j) by (intros; apply I3; assumption).
  rewrite ln_mult; [|apply I7; exact HK|apply comp_pos; exact P]. rewrite ln_comp by exact P. destruct (used_logpi g k (I7 k HK)) as [_ U]. rewrite <- U, ln_exp.
  pose proof (nat_form d (g_mu g k) (g_L g k) (g_eta g k) _ 1 (suff d x) P E eq_refl) as NF. rewrite Rplus_0_l, Rmult_1_l in NF. rewrite NF, log_lik_form by exact P. rewrite Rplus_comm. f_equal.
  apply sumn_ext. intros j J. unfold suff. destruct (Nat.ltb_spec j d); [|lia]. destruct (Nat.ltb_spec (d + j) d); [lia|]. replace (d + j - d)%nat with j by lia. lra.
Qed.
Lemma map_nonempty {A} (f : nat -> A) K : (0 < K)%nat -> map f (seq 0 K) <> [].
Proof. destruct K; [lia|]. simpl. discriminate. Qed.
Lemma mix_sum K d g x : GInv K d g -> sum_exp (map (fun k => ln (used g k * comp_dens d (g_mu g k) (g_L g k) x)) (seq 0 K)) = mix_dens K d (used g) (g_mu g) (g_L g) x.
Proof.
  intros (I1 & I2 & I3 & I4 & I5 & I6 & I7). rewrite sum_exp_sum, map_map. unfold mix_dens, sumn. apply Rsum_ext. intros k Hk. apply in_seq in Hk. apply exp_ln. apply Rmult_lt_0_compat; [apply I7; lia|apply comp_pos; intros; apply I3; lia].
Qed.
(** ** Theorems *)
(** log_prob is the log-density of the mixture with the means and precisions of the object and the weights it uses, up to 1e-20. *)
Theorem C71_log_prob K d g x : (0 < K)%nat -> g_made K d g -> exists y g' z g'',
  g_log_prob_nat g x = Ok (y, g') /\ g_log_prob_std g x = Ok (z, g'') /\ z = y /\ g_made K d g' /\
  ln (mix_dens K d (used g) (g_mu g) (g_L g) x) <= y <= ln (mix_dens K d (used g) (g_mu g) (g_L g) x) + / 10 ^ 20.
Proof.
  intros HK M. pose proof (g_made_inv K d g M) as I. pose proof (logr_eq K d g x I) as LR. destruct (get_logpi_facts g) as (F1 & F2 & F3 & F4 & F5 & F6 & F7 & F8 & _).
  destruct (C63_logsumexp (map (fun k => ln (used g k * comp_dens d (g_mu g k) (g_L g k) x)) (seq 0 K)) (map_nonempty _ K HK)) as (y & E & B). rewrite (mix_sum K d g x I) in B.
  exists y, (snd (get_logpi g)), y, (snd (get_gchol (snd (get_glogL (snd (get_logpi g)))))). split; [|split; [|split; [reflexivity|split; [apply gm_logpi; exact M|exact B]]]].
  - unfold g_log_prob_nat. destruct (get_logpi g) as [lp g1] eqn:G. simpl in *. destruct I as (I1 & I2 & _). rewrite F2, I2, LR, E. cbn [bind]. rewrite Rplus_0_l. reflexivity.
  - pose proof (ginv_logpi K d g I) as J. unfold g_log_prob_std. destruct (get_logpi g) as [lp g1] eqn:G. cbn [fst snd] in *.
    assert (LL : forall k, (k < K)%nat -> fst (get_glogL g1) k = sumn d (fun j => ln (g_L g1 k j))). { destruct J as (J1 & J2 & J3 & J4 & J5 & J6 & J7). intros k Hk. unfold get_glogL. destruct (g_logL g1) eqn:Q; [apply (J5 _ eq_refl); exact Hk|]. simpl. rewrite J2. reflexivity. }
    assert (M2 : g_mu (snd (get_glogL g1)) = g_mu g1 /\ g_L (snd (get_glogL g1)) = g_L g1 /\ g_chol (snd (get_glogL g1)) = g_chol g1 /\ g_d (snd (get_glogL g1)) = g_d g1 /\ g_K (snd (get_glogL g1)) = g_K g1) by (unfold get_glogL; destruct (g_logL g1); repeat split).
    destruct (get_glogL g1) as [ll g2]. cbn [fst snd] in *. destruct M2 as (M21 & M22 & M23 & M24 & M25).
    assert (CH : forall k j, (k < K)%nat -> (j < d)%nat -> fst (get_gchol g2) k j = sqrt (g_L g1 k j)). { destruct J as (J1 & J2 & J3 & J4 & J5 & J6 & J7). intros k j Hk Hj. unfold get_gchol. rewrite M23. destruct (g_chol g1) eqn:Q; [apply (J6 _ eq_refl); assumption|]. simpl. rewrite M22. reflexivity. }
    assert (M3 : g_mu (snd (get_gchol g2)) = g_mu g2 /\ g_d (snd (get_gchol g2)) = g_d g2 /\ g_K (snd (get_gchol g2)) = g_K g2) by (unfold get_gchol; destruct (g_chol g2); repeat split).
    destruct (get_gchol g2) as [ch g3]. cbn [fst snd] in *. destruct M3 as (M31 & M32 & M33).
    destruct I as (I1 & I2 & I3 & I4 & I5 & I6 & I7).
    assert (EQ : map (fun k => lp k + 1 / 2 * ll k - 1 / 2 * INR (g_d g3) * ln (2 * PI) - 1 / 2 * sumn (g_d g3) (fun j => (x j - g_mu g3 k j) * ch k j * ((x j - g_mu g3 k j) * ch k j))) (seq 0 (g_K g3)) = map (fun k => ln (used g k * comp_dens d (g_mu g k) (g_L g k) x)) (seq 0 K)).
    { replace (g_K g3) with K by congruence. replace (g_d g3) with d by congruence. replace (g_mu g3) with (g_mu g) by congruence. apply map_ext_in. intros k Hk. apply in_seq in Hk. assert (HKk : (k < K)%nat) by lia. rewrite (LL k HKk).
      assert (P : forall j, (j < d)%nat -> 0 < g_L g k j) by (intros; apply I3; assumption).
      rewrite (ln_mult (used g k)); [|apply I7; exact HKk|apply comp_pos; exact P]. rewrite ln_comp by exact P. destruct (used_logpi g k (I7 k HKk)) as [_ U]. rewrite G in U. cbn [fst] in U. rewrite <- U, ln_exp.
      unfold Rminus. rewrite !Rplus_assoc. f_equal. rewrite log_lik_form by exact P. rewrite F4.
      rewrite (sumn_ext d (fun j => (x j + - g_mu g k j) * ch k j * ((x j + - g_mu g k j) * ch k j)) (fun j => g_L g k j * (x j * x j - 2 * g_mu g k j * x j + g_mu g k j * g_mu g k j))).
      - replace (1 / 2 * INR d * ln (2 * PI)) with (sumn d (fun _ => 1 / 2 * ln (2 * PI))) by (rewrite sumn_const; ring).
        transitivity (sumn d (fun j => 1 / 2 * ln (g_L g k j)) - sumn d (fun _ => 1 / 2 * ln (2 * PI)) - sumn d (fun j => 1 / 2 * (g_L g k j * (x j * x j - 2 * g_mu g k j * x j + g_mu g k j * g_mu g k j)))); [rewrite !sumn_mul; ring|]. rewrite <- !sumn_sub. reflexivity.
      - intros j Hj. rewrite (CH k j HKk Hj), F4. pose proof (sqrt_sqrt (g_L g k j) (Rlt_le _ _ (P j Hj))) as S. transitivity ((sqrt (g_L g k j) * sqrt (g_L g k j)) * ((x j - g_mu g k j) * (x j - g_mu g k j))); [ring|rewrite S; ring]. }
    rewrite EQ, E. cbn [bind]. reflexivity.
Qed.
(** A new object uses the weights it was given (plus 1e-15). *)
Theorem C71_new_weights K d pi mu L fl mn up um ul g : g_new K d pi mu L fl mn up um ul = Ok g -> used g = (fun k => pi k + / 10 ^ 15) /\ g_mu g = mu /\ g_L g = L.
Proof. unfold g_new. destruct (all_pos2 K d L); [|discriminate]. cbn [g_nat]. intros H. injection H as <-. repeat split. Qed.
Lemma pz_row K d g (x : nat -> R) : (0 < K)%nat -> GInv K d g -> exists z, softmax (logr (snd (get_logpi g)) (fst (get_logpi g)) (suff d x)) = Ok z /\
  List.length z = K /\ forall k, (k < K)%nat -> nth k z 0 = resp K d (used g) (g_mu g) (g_L g) k x.
Proof.
  intros HK I. rewrite (logr_eq K d g x I). destruct (C63_softmax _ (map_nonempty (fun k => ln (used g k * comp_dens d (g_mu g k) (g_L g k) x)) K HK)) as (p & E & Q & _). rewrite (mix_sum K d g x I) in Q. exists p. split; [exact E|].
  subst p. rewrite map_map. split; [rewrite map_length, seq_length; reflexivity|]. intros k Hk. rewrite (nth_indep _ 0 ((fun k0 => exp (ln (used g k0 * comp_dens d (g_mu g k0) (g_L g k0) x)) / mix_dens K d (used g) (g_mu g) (g_L g) x) 0%nat)) by (rewrite map_length, seq_length; exact Hk).
  rewrite (map_nth (fun k0 => exp (ln (used g k0 * comp_dens d (g_mu g k0) (g_L g k0) x)) / mix_dens K d (used g) (g_mu g) (g_L g) x)), seq_nth by exact Hk. cbn [Nat.add]. unfold resp. destruct I as (I1 & I2 & I3 & I4 & I5 & I6 & I7).
  rewrite exp_ln; [reflexivity|]. apply Rmult_lt_0_compat; [apply I7; exact Hk|apply comp_pos; intros; apply I3; assumption].
Qed.
Lemma resp_pos K d g x k : (k < K)%nat -> GInv K d g -> 0 < resp K d (used g) (g_mu g) (g_L g) k x.
Proof.
  intros Hk (I1 & I2 & I3 & I4 & I5 & I6 & I7). unfold resp. apply Rdiv_lt_0_compat; [apply Rmult_lt_0_compat; [apply I7; exact Hk|apply comp_pos; intros; apply I3; assumption]|apply mix_pos; [lia|exact I7|exact I3]].
Qed.
Lemma resp_sum K d g x : (0 < K)%nat -> GInv K d g -> sumn K (fun k => resp K d (used g) (g_mu g) (g_L g) k x) = 1.
Proof.
  intros HK (I1 & I2 & I3 & I4 & I5 & I6 & I7). unfold resp, Rdiv. rewrite (sumn_ext K _ (fun k => / mix_dens K d (used g) (g_mu g) (g_L g) x * (used g k * comp_dens d (g_mu g k) (g_L g k) x))) by (intros; ring).
  rewrite sumn_mul. apply Rinv_l. apply Rgt_not_eq, mix_pos; assumption.
Qed.
Theorem C71_responsibilities K d g x : (0 < K)%nat -> g_made K d g -> exists z g', compute_pz g (suff d x) = Ok (z, g') /\ List.length z = K /\
  (forall k, (k < K)%nat -> nth k z 0 = resp K d (used g) (g_mu g) (g_L g) k x /\ 0 < nth k z 0) /\ Rsum z = 1.
Proof.
  intros HK M. pose proof (g_made_inv K d g M) as I. destruct (pz_row K d g x HK I) as (z & E & L & Z). unfold compute_pz. destruct (get_logpi g) as [lp g1]. cbn [fst snd] in E. rewrite E. cbn [bind]. exists z, g1. split; [reflexivity|]. split; [exact L|].
  split; [intros k Hk; rewrite (Z k Hk); split; [reflexivity|apply resp_pos; assumption]|]. rewrite <- (resp_sum K d g x HK I). unfold sumn. f_equal. subst K. clear - Z.
  apply (nth_ext _ _ 0 0); [rewrite map_length, seq_length; reflexivity|]. intros k Hk. rewrite (Z k Hk). symmetry. rewrite (nth_indep _ 0 (resp (List.length z) d (used g) (g_mu g) (g_L g) 0 x)) by (rewrite map_length, seq_length; exact Hk). rewrite (map_nth (fun k => resp (List.length z) d (used g) (g_mu g) (g_L g) k x)), seq_nth by exact Hk. reflexivity.
Qed.

(** *** E-step *)
Definition stats_of (K d : nat) (g : gmm) (x : list (nat -> R)) (w : option (list R)) (N : nat -> R) (u : nat -> nat -> R) : Prop :=
  forall k, (k < K)%nat -> let z := resp K d (used g) (g_mu g) (g_L g) k in
    N k = total x w z /\ (forall j, (j < d)%nat -> u k j = total x w (fun r => z r * r j) /\ u k (d + j)%nat = total x w (fun r => z r * (r j * r j))).
Definition stats_raw (K d : nat) (g : gmm) (x : list (nat -> R)) (w : option (list R)) (N : nat -> R) (u : nat -> nat -> R) : Prop :=
  forall k, (k < K)%nat -> let z := resp K d (used g) (g_mu g) (g_L g) k in
    N k = total x w z /\ (forall j, u k j = total x w (fun r => z r * suff d r j)).
Lemma raw_stats K d g x w N u : stats_raw K d g x w N u -> stats_of K d g x w N u.
Proof.
  intros H k Hk z. destruct (H k Hk) as [H1 H2]. split; [exact H1|]. intros j J. rewrite !H2. unfold suff. destruct (Nat.ltb_spec j d); [|lia]. destruct (Nat.ltb_spec (d + j) d); [lia|]. replace (d + j - d)%nat with j by lia. split; reflexivity.
Qed.
Lemma row_weights_ok {X} (x : list X) w : fits x w -> row_weights x w = Ok (weights x w).
Proof. destruct w as [w|]; simpl; [|reflexivity]. intros F. rewrite F, Nat.eqb_refl. reflexivity. Qed.
Lemma weights_len {X} (x : list X) w : fits x w -> List.length (weights x w) = List.length x.
Proof. destruct w; simpl; [trivial|]. intros _. apply map_length. Qed.
Lemma g_accum_x_ok K d g x w : (0 < K)%nat -> GInv K d g -> fits x w -> exists N u, g_accum_x g x w = Ok (N, u, snd (get_logpi g)) /\ stats_raw K d g x w N u.
Proof.
  intros HK I F. unfold g_accum_x, g_accum_1. pose proof I as (I1 & I2 & _). rewrite I2.
  assert (E : exists zs, mapM (fun r => softmax (logr (snd (get_logpi g)) (fst (get_logpi g)) r)) (map (suff d) x) = Ok zs /\ Forall2 (fun r z => List.length z = K /\ forall k, (k < K)%nat -> nth k z 0 = resp K d (used g) (g_mu g) (g_L g) k r) x zs).
  { clear F. induction x as [|r x (zs & E & Z)]; [exists []; split; [reflexivity|constructor]|]. destruct (pz_row K d g r HK I) as (z & E1 & L & Z1). exists (z :: zs). cbn [map mapM]. rewrite E1. cbn [bind]. rewrite E. split; [reflexivity|]. constructor; [split; assumption|exact Z]. }
  destruct E as (zs & E & Z). destruct (get_logpi g) as [lp g1]. cbn [fst snd] in *. rewrite E. cbn [bind].
  assert (RW : row_weights (map (suff d) x) w = Ok (weights x w)). { rewrite row_weights_ok; [f_equal; destruct w; [reflexivity|simpl; rewrite map_map; reflexivity]|destruct w; simpl in *; [rewrite map_length; exact F|exact Logic.I]]. }
  rewrite RW. cbn [bind]. eexists _, _. split; [reflexivity|]. intros k Hk. cbv zeta. pose proof (weights_len x w F) as LW. unfold total. clear RW. generalize dependent (weights x w). clear - Z Hk. intros ws LW. split; [|intros j].
  - f_equal. revert ws LW. induction Z as [|r z x zs (L & Z0) _ IH]; intros [|v ws] LW; try discriminate LW; [reflexivity|]. simpl. f_equal; [|apply IH; injection LW as LW; exact LW].
    rewrite (nth_indep _ 0 (0 * v)) by (rewrite map_length, L; exact Hk). rewrite (map_nth (fun p => p * v)), (Z0 k Hk). ring.
  - f_equal. revert ws LW. induction Z as [|r z x zs (L & Z0) _ IH]; intros [|v ws] LW; try discriminate LW; [reflexivity|]. simpl. f_equal; [|apply IH; injection LW as LW; exact LW].
    rewrite (nth_indep _ 0 (0 * v)) by (rewrite map_length, L; exact Hk). rewrite (map_nth (fun p => p * v)), (Z0 k Hk). ring.
Qed.
Lemma get_logpi_idem g : snd (get_logpi (snd (get_logpi g))) = snd (get_logpi g).
Proof. unfold get_logpi at 1. destruct (get_logpi_facts g) as (_ & _ & _ & _ & _ & _ & _ & _ & _ & _ & _ & _ & _ & _ & _ & ->). reflexivity. Qed.
Lemma mix_ext K d wt wt' mu L x : (forall k, (k < K)%nat -> wt k = wt' k) -> mix_dens K d wt mu L x = mix_dens K d wt' mu L x.
Proof. intros H. apply sumn_ext. intros k Hk. rewrite (H k Hk). reflexivity. Qed.
Lemma raw_logpi K d g x w N u : GInv K d g -> stats_raw K d (snd (get_logpi g)) x w N u -> stats_raw K d g x w N u.
Proof.
  intros I H k Hk. specialize (H k Hk). cbv zeta in *. destruct (get_logpi_facts g) as (F1 & F2 & F3 & F4 & _). rewrite F3, F4 in H. pose proof I as (_ & _ & _ & _ & _ & _ & I7).
  assert (RE : forall r, resp K d (used (snd (get_logpi g))) (g_mu g) (g_L g) k r = resp K d (used g) (g_mu g) (g_L g) k r).
  { intros r. unfold resp. rewrite (proj1 (used_logpi g k (I7 k Hk))). f_equal. apply mix_ext. intros i Hi. apply used_logpi. apply I7. exact Hi. }
  destruct H as [H1 H2]. split; [rewrite H1; apply total_ext; intros; apply RE|]. intros j. rewrite H2. apply total_ext. intros r _. rewrite RE. reflexivity.
Qed.
Lemma g_accum_n_ok K d g x w b : (0 < K)%nat -> GInv K d g -> fits x w -> x <> [] -> (0 < b)%Z -> exists N u, g_accum_n g x w b = Ok (N, u, snd (get_logpi g)) /\ stats_raw K d g x w N u.
Proof.
  intros HK I F NE B. unfold g_accum_n. destruct (Z.eqb_spec b 0) as [B0|B0]; [lia|]. destruct (Z.ltb_spec b 0) as [B1|B1]; [lia|]. assert (KN : (0 < Z.to_nat b)%nat) by lia. set (n := Z.to_nat b) in *. clearbody n.
  set (step := fun st i1 => _).
  set (m := ((List.length x + n - 1) / n)%nat). unfold range_step. fold m.
  assert (G : forall q, exists r g', fold_left step (map (fun i => (i * n)%nat) (seq 0 q)) (Ok (None, g)) = Ok (r, g') /\ g' = (match q with O => g | _ => snd (get_logpi g) end) /\
    match r with None => q = 0%nat | Some (N, u) => (0 < q)%nat /\ stats_raw K d g (firstn (q * n) x) (option_map (firstn (q * n)) w) N u end).
  { induction q as [|q (r & g' & E & EG & R)]; [exists None, g; split; [reflexivity|split; reflexivity]|]. rewrite seq_S, map_app, fold_left_app, E. cbn [map fold_left Nat.add]. unfold step. cbn [bind].
    set (i2 := Nat.min (q * n + n) (List.length x)).
    assert (FI : forall A (l : list A), List.length l = List.length x -> slice (q * n) i2 l = slice (q * n) (S q * n) l).
    { intros A l L. unfold slice, i2. destruct (Nat.le_gt_cases (q * n + n) (List.length x)); [do 2 f_equal; lia|]. rewrite !firstn_all2; [reflexivity| |]; rewrite skipn_length; lia. }
    rewrite (FI _ x eq_refl). assert (FW : option_map (slice (q * n) i2) w = wslice (q * n) (S q * n) w). { destruct w as [w|]; [|reflexivity]. unfold wslice. simpl option_map. f_equal. apply FI. exact F. }
    rewrite FW.
    assert (I' : GInv K d g') by (subst g'; destruct q; [exact I|apply ginv_logpi; exact I]).
    destruct (g_accum_x_ok K d g' (slice (q * n) (S q * n) x) (wslice (q * n) (S q * n) w) HK I') as (Ni & ui & A1 & A2); [apply fits_slice; exact F|]. rewrite A1. cbn [bind].
    assert (A3 : stats_raw K d g (slice (q * n) (S q * n) x) (wslice (q * n) (S q * n) w) Ni ui). { subst g'. destruct q; [exact A2|apply raw_logpi; assumption]. }
    assert (EG' : snd (get_logpi g') = snd (get_logpi g)) by (subst g'; destruct q; [reflexivity|apply get_logpi_idem]). rewrite EG'.
    pose proof (fun f => total_slice_add x w f (q * n) (S q * n) F ltac:(lia)) as TS. destruct r as [[N0 u0]|].
    - destruct R as (R1 & R2). eexists _, _. split; [reflexivity|]. split; [reflexivity|]. split; [lia|]. intros k Hk. cbv zeta. destruct (R2 k Hk) as [Q1 Q2]. destruct (A3 k Hk) as [Q3 Q4]. split; [rewrite TS, Q1, Q3; reflexivity|]. intros j. rewrite TS, Q2, Q4. reflexivity.
    - subst q. eexists _, _. split; [reflexivity|]. split; [reflexivity|]. split; [lia|]. assert (Z0 : forall f, total (firstn (0 * n) x) (option_map (firstn (0 * n)) w) f = 0) by reflexivity. intros k Hk. cbv zeta. destruct (A3 k Hk) as [Q3 Q4]. split; [rewrite TS, Z0, Q3; ring|]. intros j. rewrite TS, Z0, Q4. ring. }
  destruct (G m) as (r & g' & E & EG & R). rewrite E. cbn [bind].
  assert (MK : (List.length x <= m * n)%nat). { unfold m. pose proof (Nat.div_mod (List.length x + n - 1) n ltac:(lia)) as DM. pose proof (Nat.mod_upper_bound (List.length x + n - 1) n ltac:(lia)). nia. }
  assert (MP : m <> 0%nat). { destruct x; [congruence|]. simpl in MK. destruct m; simpl in *; lia. }
  destruct r as [[N u]|]; [|contradiction]. destruct R as (_ & R2). exists N, u. split; [rewrite EG; destruct m; [contradiction|reflexivity]|].
  assert (W : option_map (firstn (m * n)) w = w) by (destruct w as [w|]; [simpl; f_equal; apply firstn_all2; simpl in F; lia|reflexivity]). rewrite W, firstn_all2 in R2 by exact MK. exact R2.
Qed.
Lemma g_estep_ok K d g x w b : (0 < K)%nat -> GInv K d g -> fits x w -> x <> [] -> good_batch b -> exists N u, g_estep g x w b = Ok (N, u, snd (get_logpi g)) /\ stats_of K d g x w N u.
Proof.
  intros HK I F NE B. destruct b as [b|]; simpl.
  - destruct (g_accum_n_ok K d g x w b HK I F NE B) as (N & u & E & S). exists N, u. split; [exact E|apply raw_stats; exact S].
  - destruct (g_accum_x_ok K d g x w HK I F) as (N & u & E & S). exists N, u. split; [exact E|apply raw_stats; exact S].
Qed.
(** The statistics of the E-step: posterior-weighted counts, sums and sums of squares, whatever the batch size; the counts add up to the
    total weight of the data. *)
Theorem C71_estep K d g x w b : (0 < K)%nat -> g_made K d g -> fits x w -> x <> [] -> good_batch b -> exists N u g', g_estep g x w b = Ok (N, u, g') /\ g_made K d g' /\
  stats_of K d g x w N u /\ sumn K N = total x w (fun _ => 1).
Proof.
  intros HK M F NE B. pose proof (g_made_inv K d g M) as I. destruct (g_estep_ok K d g x w b HK I F NE B) as (N & u & E & S). exists N, u, (snd (get_logpi g)). split; [exact E|]. split; [apply gm_logpi; exact M|]. split; [exact S|].
  rewrite (sumn_ext K N (fun k => total x w (resp K d (used g) (g_mu g) (g_L g) k))) by (intros k Hk; exact (proj1 (S k Hk))). rewrite <- total_sumn. apply total_ext. intros r _. apply resp_sum; assumption.
Qed.

(** *** M-step *)
(** weighted mean and variance of a component, and the variance floor of a coordinate: the fraction f of the average variance over the
    components whose count exceeds n *)
Definition count_of (K d : nat) (g : gmm) x w (k : nat) : R := total x w (resp K d (used g) (g_mu g) (g_L g) k).
Definition cmean (K d : nat) (g : gmm) x w (k j : nat) : R := wmean x (reweight x w (resp K d (used g) (g_mu g) (g_L g) k)) j.
Definition cvar (K d : nat) (g : gmm) x w (k j : nat) : R := wvar x (reweight x w (resp K d (used g) (g_mu g) (g_L g) k)) j.
Definition average (l : list R) : R := Rsum l / INR (List.length l).
Definition vfloor (K d : nat) (g : gmm) x w (f n : R) (j : nat) : R :=
  f * average (map (fun k => cvar K d g x w k j) (filter (fun k => if Rlt_dec n (count_of K d g x w k) then true else false) (seq 0 K))).
Lemma total_reweight {X} (x : list X) w (z f : X -> R) : fits x w -> total x (reweight x w z) f = total x w (fun r => z r * f r).
Proof.
  intros F. unfold total, reweight. cbn [weights]. pose proof (weights_len x w F) as L. revert L. generalize (weights x w) as ws. clear F w.
  induction x as [|r x IH]; intros [|v ws] L; try discriminate L; [reflexivity|]. simpl. injection L as L. rewrite IH by exact L. ring.
Qed.
Lemma total_pos {X} (x : list X) w f : fits x w -> pos_weights w -> 0 < total x w (fun _ => 1) -> (forall r, In r x -> 0 < f r) -> 0 < total x w f.
Proof.
  intros F W. unfold total. pose proof (weights_len x w F) as L. assert (P : Forall (fun v => 0 <= v) (weights x w)).
  { destruct w as [w|]; simpl in *; [exact W|]. apply Forall_forall. intros v V. apply in_map_iff in V. destruct V as (? & <- & _). lra. }
  revert L P. generalize (weights x w) as ws. clear F W w. induction x as [|r x IH]; intros [|v ws] L P T Q; try discriminate L; [simpl in T; lra|]. simpl in *. injection L as L. inversion P; subst.
  assert (FR : 0 < f r) by (apply Q; left; reflexivity).
  assert (N : 0 <= Rsum (map (fun rv : X * R => snd rv * f (fst rv)) (combine x ws))).
  { apply Rsum_nonneg. intros y Y. apply in_map_iff in Y. destruct Y as ([r' v'] & <- & I). simpl. match goal with H : Forall _ ws |- _ => rewrite Forall_forall in H; specialize (H v' (in_combine_r _ _ _ _ I)) end. specialize (Q r' (or_intror (in_combine_l _ _ _ _ I))). nra. }
  destruct (Rle_lt_or_eq_dec 0 v H1) as [V|V]; [nra|]. subst v. assert (0 < Rsum (map (fun rv : X * R => snd rv * f (fst rv)) (combine x ws))) by (apply IH; [exact L|assumption|lra|intros; apply Q; right; assumption]). lra.
Qed.
Lemma fits_reweight {X} (x : list X) w z : fits x w -> fits x (reweight x w z).
Proof. intros F. simpl. rewrite map_length, combine_length, (weights_len x w F). lia. Qed.
Lemma count_pos K d g x w k : GInv K d g -> fits x w -> pos_weights w -> 0 < total x w (fun _ => 1) -> (k < K)%nat -> 0 < count_of K d g x w k.
Proof. intros I F W T Hk. apply total_pos; try assumption. intros. apply resp_pos; assumption. Qed.
Lemma filter_ext_seq (p q : nat -> bool) K : (forall k, (k < K)%nat -> p k = q k) -> filter p (seq 0 K) = filter q (seq 0 K).
Proof. intros H. apply filter_ext_in. intros k Hk. apply in_seq in Hk. apply H. lia. Qed.
Lemma cmean_stats K d g x w N u k j : fits x w -> stats_of K d g x w N u -> (k < K)%nat -> (j < d)%nat -> u k j / N k = cmean K d g x w k j.
Proof.
  intros F S Hk J. destruct (S k Hk) as [S1 S2]. destruct (S2 j J) as [S3 _]. unfold cmean, wmean. rewrite !total_reweight by exact F. rewrite S1, S3. f_equal. apply total_ext. intros; ring.
Qed.
Lemma cvar_stats K d g x w N u k j : fits x w -> stats_of K d g x w N u -> (k < K)%nat -> (j < d)%nat -> 0 < N k -> u k (d + j)%nat / N k - (u k j / N k) * (u k j / N k) = cvar K d g x w k j.
Proof.
  intros F S Hk J P. rewrite (cmean_stats K d g x w N u k j F S Hk J). destruct (S k Hk) as [S1 S2]. destruct (S2 j J) as [_ S3]. unfold cvar. rewrite var_form.
  - rewrite !total_reweight by exact F. rewrite S3, S1. unfold cmean. f_equal. f_equal. apply total_ext. intros; ring.
  - rewrite total_reweight by exact F. rewrite S1 in P. rewrite (total_ext x w _ (resp K d (used g) (g_mu g) (g_L g) k)); [exact P|intros; ring].
Qed.
(** One training iteration: means, variances (not below the floor) and weights are the posterior-weighted ones of the data. *)
Theorem C71_mstep K d g x w b : (0 < K)%nat -> g_made K d g -> g_updmu g = true -> fits x w -> pos_weights w -> x <> [] -> 0 < total x w (fun _ => 1) -> good_batch b ->
  (forall k, (k < K)%nat -> g_minN g < count_of K d g x w k) ->
  exists N u g1 g2, g_estep g x w b = Ok (N, u, g1) /\ g_mstep g1 N u = Ok (Some g2) /\ (forall k, (k < K)%nat -> 0 < N k) /\
  (forall k j, (k < K)%nat -> (j < d)%nat -> g_mu g2 k j = cmean K d g x w k j) /\
  (forall k j, (k < K)%nat -> (j < d)%nat -> g_L g2 k j = if g_updL g then 1 / Rmax (cvar K d g x w k j) (vfloor K d g x w (g_floor g) (g_minN g) j) else g_L g k j) /\
  (forall k, (k < K)%nat -> g_pi g2 k = if g_updpi g then count_of K d g x w k / total x w (fun _ => 1) else g_pi g k) /\
  (g_updpi g = true -> sumn K (g_pi g2) = 1).
Proof.
  intros HK M UM F W NE T B BIG. pose proof (g_made_inv K d g M) as I. destruct (C71_estep K d g x w b HK M F NE B) as (N & u & g1 & E & M1 & S & SN). destruct (g_estep_ok K d g x w b HK I F NE B) as (N' & u' & E' & _). rewrite E in E'. injection E' as _ _ EG1. clear N' u'.
  destruct (get_logpi_facts g) as (F1 & F2 & F3 & F4 & F5 & F6 & F7 & F8 & F9 & F10 & F11 & F12 & F13 & F14 & _). rewrite <- EG1 in *. pose proof I as (I1 & I2 & _).
  assert (NP : forall k, (k < K)%nat -> N k = count_of K d g x w k) by (intros k Hk; exact (proj1 (S k Hk))).
  assert (PN : forall k, (k < K)%nat -> 0 < N k) by (intros k Hk; rewrite (NP k Hk); apply count_pos; assumption).
  assert (MS : exists g2, g_mstep g1 N u = Ok (Some g2)).
  { unfold g_mstep. rewrite F1, I1. match goal with |- context [existsb ?p (seq 0 K)] => assert (X1 : existsb p (seq 0 K) = false) end.
    { apply Bool.not_true_iff_false. intros X. apply existsb_exists in X. destruct X as (k & Hk & X). apply in_seq in Hk. destruct (Req_EM_T (N k) 0); [|discriminate]. specialize (PN k ltac:(lia)). lra. }
    rewrite X1. assert (X2 : existsb (fun k => Rltb (g_minN g1) (N k)) (seq 0 K) = true). { apply existsb_exists. exists 0%nat. split; [apply in_seq; lia|]. unfold Rltb. rewrite F11, (NP 0%nat HK). specialize (BIG 0%nat HK). destruct (Rlt_dec _ _); [reflexivity|contradiction]. }
    rewrite X2. rewrite Bool.andb_false_r. cbn [g_nat]. assert (X3 : existsb (fun k => Rltb (N k) (g_minN g1)) (seq 0 K) = false).
    { apply Bool.not_true_iff_false. intros X. apply existsb_exists in X. destruct X as (k & Hk & X). apply in_seq in Hk. unfold Rltb in X. specialize (BIG k ltac:(lia)). rewrite <- NP in BIG by lia. rewrite F11 in X. destruct (Rlt_dec _ _); [lra|discriminate]. }
    rewrite X3. destruct (g_updpi g1); eexists; reflexivity. }
  destruct MS as (g2 & MS). exists N, u, g1, g2. split; [exact E|]. split; [exact MS|]. split; [exact PN|].
  destruct (mstep_facts g1 N u g2 MS) as (G1 & G2 & G3 & G4 & _ & _ & _ & _ & _ & G10 & _). rewrite F13, UM in G3, G4. rewrite F1, I1 in *. rewrite F2, I2 in *.
  split; [intros k j Hk J; rewrite G3; apply cmean_stats; assumption|].
  split. { intros k j Hk J. rewrite G4, F14. destruct (g_updL g); [|rewrite F4; reflexivity]. rewrite (cvar_stats K d g x w N u k j F S Hk J (PN k Hk)). do 2 f_equal. unfold s_floor, vfloor, average. rewrite F10, F11. f_equal. rewrite map_length.
    assert (FE : filter (fun k => Rltb (g_minN g) (N k)) (seq 0 K) = filter (fun k => if Rlt_dec (g_minN g) (count_of K d g x w k) then true else false) (seq 0 K)) by (apply filter_ext_seq; intros i Hi; unfold Rltb; rewrite (NP i Hi); reflexivity).
    rewrite FE. f_equal. apply Rsum_ext. intros i Hi. apply filter_In in Hi. destruct Hi as [Hi _]. apply in_seq in Hi. apply (cvar_stats K d g x w N u i j F S); [lia|exact J|apply PN; lia]. }
  rewrite G10, F12. destruct (g_updpi g).
  - split; [intros k Hk; rewrite SN, (NP k Hk); reflexivity|]. intros _. rewrite (sumn_ext K (fun k => N k / sumn K N) (fun k => / sumn K N * N k)) by (intros; unfold Rdiv; ring). rewrite sumn_mul. apply Rinv_l. rewrite SN. lra.
  - split; [intros; rewrite F9; reflexivity|]. discriminate.
Qed.
(** *** An iteration of training does not decrease the log-likelihood *)
Lemma ln_quot a b : 0 < a -> 0 < b -> ln (a / b) = ln a - ln b.
Proof. intros A B. unfold Rdiv. rewrite ln_mult; [|exact A|apply Rinv_0_lt_compat; exact B]. rewrite ln_Rinv by exact B. ring. Qed.
Lemma jensen K a b : (0 < K)%nat -> (forall k, (k < K)%nat -> 0 < a k) -> (forall k, (k < K)%nat -> 0 < b k) ->
  sumn K (fun k => a k / sumn K a * (ln (b k) - ln (a k))) <= ln (sumn K b) - ln (sumn K a).
Proof.
  intros HK PA PB. set (A := sumn K a). set (B := sumn K b). assert (AP : 0 < A) by (apply sumn_pos; assumption). assert (BP : 0 < B) by (apply sumn_pos; assumption).
  assert (S1 : sumn K (fun k => a k / A) = 1). { rewrite (sumn_ext K _ (fun k => / A * a k)) by (intros; unfold Rdiv; ring). rewrite sumn_mul. fold A. apply Rinv_l. lra. }
  assert (S2 : sumn K (fun k => b k / B) = 1). { rewrite (sumn_ext K _ (fun k => / B * b k)) by (intros; unfold Rdiv; ring). rewrite sumn_mul. fold B. apply Rinv_l. lra. }
  assert (Q : sumn K (fun k => a k / A * (ln (b k) - ln (a k)) - a k / A * (ln B - ln A)) <= sumn K (fun k => b k / B - a k / A)).
  { apply sumn_le. intros k Hk. specialize (PA k Hk). specialize (PB k Hk). assert (AA : 0 < a k / A) by (apply Rdiv_lt_0_compat; assumption). assert (BB : 0 < b k / B) by (apply Rdiv_lt_0_compat; assumption).
    assert (TP : 0 < (b k / B) / (a k / A)) by (apply Rdiv_lt_0_compat; assumption). pose proof (ln_le_sub1 _ TP) as L. rewrite !ln_quot in L by assumption.
    apply (Rmult_le_compat_l (a k / A)) in L; [|lra]. replace (a k / A * (b k / B / (a k / A) - 1)) with (b k / B - a k / A) in L by (field; repeat split; lra). lra. }
  rewrite (sumn_sub K (fun k => b k / B)), S1, S2, sumn_sub in Q. rewrite (sumn_ext K (fun k => a k / A * (ln B - ln A)) (fun k => (ln B - ln A) * (a k / A))) in Q by (intros; ring). rewrite sumn_mul, S1 in Q. lra.
Qed.
Lemma ml_gen fl v l' t : 0 < Rmax v fl -> 0 < l' -> l' * fl <= 1 -> 0 <= t -> ln l' - l' * (v + t) <= ln (1 / Rmax v fl) - 1 / Rmax v fl * v.
Proof.
  intros SP L0 L T. set (s := Rmax v fl) in *.
  assert (E1 : ln (1 / s) = - ln s). { unfold Rdiv. rewrite Rmult_1_l. apply ln_Rinv. exact SP. }
  assert (E2 : ln (l' * s) = ln l' + ln s) by (apply ln_mult; lra).
  pose proof (ln_le_sub1 (l' * s) ltac:(nra)) as Q. rewrite E2 in Q. rewrite E1. assert (LT : 0 <= l' * t) by nra.
  assert (K : l' * s - 1 <= l' * v - 1 / s * v); [|nra].
  assert (H : (l' - 1 / s) * s = l' * s - 1) by (field; lra). rewrite <- H. replace (l' * v - 1 / s * v) with ((l' - 1 / s) * v) by ring.
  assert (SV : v <= s) by apply Rmax_l. destruct (Req_EM_T s v) as [->|NE]; [lra|]. assert (SF : s = fl) by (unfold s, Rmax in *; destruct (Rle_dec v fl); [reflexivity|congruence]).
  assert ((l' - 1 / s) * s <= 0) by (rewrite H, SF; lra). assert (l' - 1 / s <= 0) by nra. nra.
Qed.
Lemma total_le {X} (x : list X) w f g : fits x w -> pos_weights w -> (forall r, In r x -> f r <= g r) -> total x w f <= total x w g.
Proof.
  intros F W H. enough (0 <= total x w (fun r => g r + -1 * f r)) by (rewrite total_add, total_mul in *; lra). apply total_nonneg; try assumption. intros r R. specialize (H r R). lra.
Qed.
Lemma em_general K d wt mu L mu' L' x w : (0 < K)%nat -> (forall k, (k < K)%nat -> 0 < wt k) -> (forall k j, (k < K)%nat -> (j < d)%nat -> 0 < L k j) -> (forall k j, (k < K)%nat -> (j < d)%nat -> 0 < L' k j) ->
  fits x w -> pos_weights w -> 
  (forall k, (k < K)%nat -> total x (reweight x w (resp K d wt mu L k)) (log_lik d (mu k) (L k)) <= total x (reweight x w (resp K d wt mu L k)) (log_lik d (mu' k) (L' k))) ->
  total x w (fun r => ln (mix_dens K d wt mu L r)) <= total x w (fun r => ln (mix_dens K d wt mu' L' r)).
Proof.
  intros HK PW PL PL' F W H.
  assert (Q : total x w (fun r => sumn K (fun k => resp K d wt mu L k r * (log_lik d (mu' k) (L' k) r - log_lik d (mu k) (L k) r))) <= total x w (fun r => ln (mix_dens K d wt mu' L' r) + -1 * ln (mix_dens K d wt mu L r))).
  { apply total_le; try assumption. intros r _. pose proof (jensen K (fun k => wt k * comp_dens d (mu k) (L k) r) (fun k => wt k * comp_dens d (mu' k) (L' k) r) HK) as J.
    assert (P1 : forall k, (k < K)%nat -> 0 < comp_dens d (mu k) (L k) r) by (intros; apply comp_pos; intros; apply PL; assumption).
    assert (P2 : forall k, (k < K)%nat -> 0 < comp_dens d (mu' k) (L' k) r) by (intros; apply comp_pos; intros; apply PL'; assumption).
    specialize (J ltac:(intros; apply Rmult_lt_0_compat; auto) ltac:(intros; apply Rmult_lt_0_compat; auto)). cbv beta in J. fold (mix_dens K d wt mu L r) in J. fold (mix_dens K d wt mu' L' r) in J. replace (ln (mix_dens K d wt mu' L' r) + -1 * ln (mix_dens K d wt mu L r)) with (ln (mix_dens K d wt mu' L' r) - ln (mix_dens K d wt mu L r)) by ring.
    eapply Rle_trans; [right|exact J]. apply sumn_ext. intros k Hk. unfold resp. f_equal. rewrite !ln_mult by auto. rewrite !ln_comp by (intros; auto). ring. }
  rewrite total_add, total_mul, total_sumn in Q. enough (0 <= sumn K (fun k => total x w (fun r => resp K d wt mu L k r * (log_lik d (mu' k) (L' k) r - log_lik d (mu k) (L k) r)))) by lra.
  apply sumn_nonneg. intros k Hk. specialize (H k Hk). rewrite !total_reweight in H by exact F.
  rewrite (total_ext x w _ (fun r => resp K d wt mu L k r * log_lik d (mu' k) (L' k) r + -1 * (resp K d wt mu L k r * log_lik d (mu k) (L k) r))) by (intros; ring). rewrite total_add, total_mul. lra.
Qed.
Lemma used_after_estep g g1 N u g2 : g1 = snd (get_logpi g) -> g_mstep g1 N u = Ok (Some g2) -> forall k, 0 < used g k -> used g2 k = used g k.
Proof.
  intros -> M k P. destruct (mstep_facts _ _ _ _ M) as (_ & _ & _ & _ & _ & _ & F & _). rewrite <- (proj1 (used_logpi g k P)). unfold used. rewrite F. destruct (get_logpi_facts g) as (_ & _ & _ & _ & _ & _ & _ & _ & _ & _ & _ & _ & _ & _ & _ & ->). reflexivity.
Qed.
(** (with floored variances: if the old variances are not below the floor and the new ones are positive) *)
Theorem C71_em_increases K d g x w b N u g1 g2 : (0 < K)%nat -> g_made K d g -> g_updmu g = true -> fits x w -> pos_weights w -> x <> [] -> 0 < total x w (fun _ => 1) -> good_batch b ->
  (forall k, (k < K)%nat -> g_minN g < count_of K d g x w k) ->
  (g_updL g = true -> forall k j, (k < K)%nat -> (j < d)%nat -> let fl := vfloor K d g x w (g_floor g) (g_minN g) j in fl <= 1 / g_L g k j /\ 0 < Rmax (cvar K d g x w k j) fl) ->
  g_estep g x w b = Ok (N, u, g1) -> g_mstep g1 N u = Ok (Some g2) ->
  g_made K d g2 /\ (forall k, (k < K)%nat -> used g2 k = used g k) /\
  total x w (fun r => ln (mix_dens K d (used g) (g_mu g) (g_L g) r)) <= total x w (fun r => ln (mix_dens K d (used g2) (g_mu g2) (g_L g2) r)).
Proof.
  intros HK M UM F W NE T B BIG FL E MS. pose proof (g_made_inv K d g M) as I. destruct (C71_mstep K d g x w b HK M UM F W NE T B BIG) as (N' & u' & g1' & g2' & E' & MS' & PN & V1 & V2 & _).
  rewrite E in E'. injection E' as <- <- <-. rewrite MS in MS'. injection MS' as <-.
  destruct (g_estep_ok K d g x w b HK I F NE B) as (N' & u' & E' & _). rewrite E in E'. injection E' as _ _ EG1. clear N' u'.
  pose proof I as (I1 & I2 & I3 & I4 & I5 & I6 & I7).
  assert (PL : forall k j, (k < K)%nat -> (j < d)%nat -> 0 < g_L g2 k j). { intros k j Hk J. rewrite (V2 k j Hk J). destruct (g_updL g) eqn:UL; [|apply I3; assumption]. destruct (FL eq_refl k j Hk J) as [_ P]. apply Rdiv_lt_0_compat; [lra|exact P]. }
  assert (U : forall k, (k < K)%nat -> used g2 k = used g k) by (intros k Hk; apply (used_after_estep g g1 N u g2 EG1 MS); apply I7; exact Hk).
  split; [apply (gm_mstep K d g1 N u); [rewrite EG1; apply gm_logpi; exact M|exact PN|exact MS|exact PL]|]. split; [exact U|].
  rewrite (total_ext x w (fun r => ln (mix_dens K d (used g2) (g_mu g2) (g_L g2) r)) (fun r => ln (mix_dens K d (used g) (g_mu g2) (g_L g2) r))) by (intros; rewrite (mix_ext K d (used g2) (used g)) by exact U; reflexivity).
  apply em_general; try assumption. intros k Hk. set (z := resp K d (used g) (g_mu g) (g_L g) k).
  assert (CP : 0 < total x (reweight x w z) (fun _ => 1)). { rewrite total_reweight by exact F. rewrite (total_ext x w _ z) by (intros; ring). apply (count_pos K d g x w k); assumption. }
  rewrite (lik_form d (g_mu g k)), (lik_form d (g_mu g2 k)) by (auto || exact CP). apply Rmult_le_compat_l; [lra|]. apply sumn_le. intros j J. rewrite (V1 k j Hk J). unfold cmean. fold z.
  replace (wmean x (reweight x w z) j - wmean x (reweight x w z) j) with 0 by ring. rewrite Rsqr_0, Rplus_0_r. pose proof (Rle_0_sqr (wmean x (reweight x w z) j - g_mu g k j)) as SQ. specialize (V2 k j Hk J). specialize (I3 k j Hk J).
  destruct (g_updL g) eqn:UL.
  - destruct (FL eq_refl k j Hk J) as [FL1 FL2]. cbv zeta in *. assert (FL3 : g_L g k j * vfloor K d g x w (g_floor g) (g_minN g) j <= 1). { apply (Rmult_le_compat_l (g_L g k j)) in FL1; [|lra]. replace (g_L g k j * (1 / g_L g k j)) with 1 in FL1 by (field; lra). exact FL1. }
    pose proof (ml_gen _ _ _ _ FL2 I3 FL3 SQ) as Q. unfold cvar in *. fold z in V2, Q. rewrite V2. lra.
  - rewrite V2. nra.
Qed.

(** *** The value reported by training *)
Lemma logr_pt K d g (x : nat -> R) k : GInv K d g -> (k < K)%nat -> sumn (2 * d) (fun j => suff d x j * g_eta g k j) - g_A g k + fst (get_logpi g) k = ln (used g k * comp_dens d (g_mu g k) (g_L g k) x).
Proof.
  intros I Hk. pose proof (logr_eq K d g x I) as E. unfold logr in E. destruct (get_logpi_facts g) as (F1 & F2 & F3 & F4 & F5 & F6 & _). pose proof I as (I1 & I2 & _). rewrite F1, F2, F5, F6, I1, I2 in E.
  exact (ext_in_map E k ltac:(apply in_seq; lia)).
Qed.
(** The value is the expected log joint density; it is the log-likelihood minus the total entropy of the posteriors, so it never exceeds
    the log-likelihood. *)
Theorem C71_elbo K d g x w b : (0 < K)%nat -> g_made K d g -> fits x w -> pos_weights w -> x <> [] -> good_batch b -> exists N u g1 e g2,
  g_estep g x w b = Ok (N, u, g1) /\ g_elbo g1 N u = (e, g2) /\ g_made K d g2 /\
  let z := resp K d (used g) (g_mu g) (g_L g) in
  e = total x w (fun r => sumn K (fun k => z k r * ln (used g k * comp_dens d (g_mu g k) (g_L g k) r))) /\
  e = total x w (fun r => ln (mix_dens K d (used g) (g_mu g) (g_L g) r)) - total x w (fun r => sumn K (fun k => - (z k r * ln (z k r)))) /\
  e <= total x w (fun r => ln (mix_dens K d (used g) (g_mu g) (g_L g) r)).
Proof.
  intros HK M F W NE B. pose proof (g_made_inv K d g M) as I. destruct (g_estep_ok K d g x w b HK I F NE B) as (N & u & E & S). set (g1 := snd (get_logpi g)) in *.
  destruct (get_logpi_facts g) as (F1 & F2 & F3 & F4 & F5 & F6 & _). fold g1 in F1, F2, F3, F4, F5, F6. pose proof I as (I1 & I2 & I3 & I4 & I5 & I6 & I7).
  assert (LP : fst (get_logpi g1) = fst (get_logpi g)). { unfold get_logpi at 1. destruct (get_logpi_facts g) as (_ & _ & _ & _ & _ & _ & _ & _ & _ & _ & _ & _ & _ & _ & _ & Q). fold g1 in Q. rewrite Q. reflexivity. }
  assert (GE : exists e g2, g_elbo g1 N u = (e, g2) /\ g2 = snd (get_logpi g1) /\ e = 0 + sumn K (fun k => sumn (2 * d) (fun j => u k j * g_eta g k j)) + sumn K (fun k => N k * (fst (get_logpi g) k - g_A g k))).
  { unfold g_elbo. rewrite <- LP. destruct (get_logpi g1) as [lp g2] eqn:G. eexists _, _. split; [reflexivity|]. split; [reflexivity|]. cbn [fst].
    destruct (get_logpi_facts g1) as (H1 & H2 & H3 & H4 & H5 & H6 & _). rewrite G in H1, H2, H5, H6. cbn [snd] in *. rewrite H1, H2, H5, H6, F1, F2, F5, F6, I1, I2. reflexivity. }
  destruct GE as (e & g2 & GE & EG & EV). exists N, u, g1, e, g2. split; [exact E|]. split; [exact GE|]. split; [rewrite EG; apply gm_logpi, gm_logpi; exact M|]. cbv zeta.
  set (z := resp K d (used g) (g_mu g) (g_L g)) in *.
  assert (E1 : e = total x w (fun r => sumn K (fun k => z k r * ln (used g k * comp_dens d (g_mu g k) (g_L g k) r)))).
  { rewrite EV, Rplus_0_l, total_sumn, <- sumn_add. apply sumn_ext. intros k Hk. destruct (S k Hk) as [S1 S2]. cbv zeta in S1, S2. fold z in S1, S2.
    rewrite (total_ext x w (fun r => z k r * ln (used g k * comp_dens d (g_mu g k) (g_L g k) r)) (fun r => sumn (2 * d) (fun j => z k r * (suff d r j * g_eta g k j)) + (fst (get_logpi g) k - g_A g k) * z k r))
      by (intros r _; rewrite <- (logr_pt K d g r k I Hk), sumn_mul; ring).
    rewrite total_add, total_mul, total_sumn, <- S1. rewrite (Rmult_comm (N k)). f_equal. apply sumn_ext. intros j J.
    rewrite (total_ext x w (fun r => z k r * (suff d r j * g_eta g k j)) (fun r => g_eta g k j * (z k r * suff d r j))) by (intros; ring). rewrite total_mul, Rmult_comm. f_equal.
    unfold suff. destruct (Nat.ltb_spec j d) as [L|L]; [exact (proj1 (S2 j L))|]. replace (u k j) with (u k (d + (j - d))%nat) by (f_equal; lia). exact (proj2 (S2 (j - d)%nat ltac:(lia))). }
  assert (ZP : forall k r, (k < K)%nat -> 0 < z k r) by (intros; apply resp_pos; assumption).
  assert (E2 : e = total x w (fun r => ln (mix_dens K d (used g) (g_mu g) (g_L g) r)) - total x w (fun r => sumn K (fun k => - (z k r * ln (z k r))))).
  { rewrite E1. rewrite (total_ext x w (fun r => sumn K (fun k => z k r * ln (used g k * comp_dens d (g_mu g k) (g_L g k) r))) (fun r => ln (mix_dens K d (used g) (g_mu g) (g_L g) r) + -1 * sumn K (fun k => - (z k r * ln (z k r))))).
    - rewrite total_add, total_mul. ring.
    - intros r _. pose proof (resp_sum K d g r HK I) as RS. fold z in RS. set (m := ln (mix_dens K d (used g) (g_mu g) (g_L g) r)). rewrite <- (Rmult_1_r m), <- RS, <- sumn_mul, <- sumn_mul, <- sumn_add. apply sumn_ext. intros k Hk.
      assert (LZ : ln (z k r) = ln (used g k * comp_dens d (g_mu g k) (g_L g k) r) - m). { unfold z, resp, m. apply ln_quot; [apply Rmult_lt_0_compat; [apply I7; exact Hk|apply comp_pos; intros; apply I3; assumption]|apply mix_pos; assumption]. }
      rewrite LZ. ring. }
  split; [exact E1|]. split; [exact E2|]. rewrite E2. enough (0 <= total x w (fun r => sumn K (fun k => - (z k r * ln (z k r))))) by lra.
  apply total_nonneg; try assumption. intros r _. apply sumn_nonneg. intros k Hk. specialize (ZP k r Hk).
  assert (Z1 : z k r <= 1). { rewrite <- (resp_sum K d g r HK I). fold z. assert (P : forall i, (i < K)%nat -> 0 < z i r) by (intros; apply resp_pos; assumption). clearbody z. clear - Hk P. induction K as [|K' IH]; [lia|]. rewrite sumn_S. destruct (Nat.eq_dec k K') as [->|NK].
    - assert (0 <= sumn K' (fun k => z k r)) by (apply sumn_nonneg; intros; left; apply P; lia). lra.
    - specialize (P K' ltac:(lia)) as P0. assert (z k r <= sumn K' (fun k => z k r)) by (apply IH; [lia|intros; apply P; lia]). lra. }
  assert (ln (z k r) <= 0) by (pose proof (ln_le_sub1 _ ZP); lra). nra.
Qed.

(** *** The trained weights are not used *)
Definition same_but_pi (a c : gmm) : Prop := g_K a = g_K c /\ g_d a = g_d c /\ g_mu a = g_mu c /\ g_L a = g_L c /\ g_eta a = g_eta c /\ g_A a = g_A c /\
  g_floor a = g_floor c /\ g_minN a = g_minN c /\ g_updmu a = g_updmu c /\ g_updL a = g_updL c /\ g_logpi a = g_logpi c /\ (g_logpi a = None -> g_pi a = g_pi c).
Lemma same_logpi a c : same_but_pi a c -> same_but_pi (snd (get_logpi a)) (snd (get_logpi c)) /\ fst (get_logpi a) = fst (get_logpi c) /\ g_logpi (snd (get_logpi a)) <> None.
Proof.
  intros (S1 & S2 & S3 & S4 & S5 & S6 & S7 & S8 & S9 & S10 & S11 & S12).
  assert (Q : fst (get_logpi a) = fst (get_logpi c)). { unfold get_logpi. rewrite <- S11. destruct (g_logpi a); [reflexivity|]. simpl. rewrite (S12 eq_refl). reflexivity. }
  destruct (get_logpi_facts a) as (A1 & A2 & A3 & A4 & A5 & A6 & A7 & A8 & A9 & A10 & A11 & A12 & A13 & A14 & A15 & A16). destruct (get_logpi_facts c) as (C1 & C2 & C3 & C4 & C5 & C6 & C7 & C8 & C9 & C10 & C11 & C12 & C13 & C14 & C15 & C16).
  split; [|split; [exact Q|rewrite A16; discriminate]]. unfold same_but_pi. rewrite A1, A2, A3, A4, A5, A6, A10, A11, A13, A14, A16, C1, C2, C3, C4, C5, C6, C10, C11, C13, C14, C16, Q. repeat (split; [assumption|]). split; [reflexivity|discriminate].
Qed.
Lemma same_accum a c x w N u a' : same_but_pi a c -> g_accum_x a x w = Ok (N, u, a') -> exists c', g_accum_x c x w = Ok (N, u, c') /\ same_but_pi a' c' /\ g_logpi a' <> None.
Proof.
  intros H E. destruct (same_logpi a c H) as (H1 & H2 & H3). destruct H as (S1 & S2 & _). unfold g_accum_x, g_accum_1 in *. rewrite <- S2.
  destruct (get_logpi a) as [lp a1], (get_logpi c) as [lp' c1]. cbn [fst snd] in *. subst lp'. pose proof H1 as (T1 & T2 & T3 & T4 & T5 & T6 & _).
  assert (LR : logr c1 lp = logr a1 lp) by (unfold logr; rewrite T1, T2, T5, T6; reflexivity). rewrite LR.
  destruct (mapM _ (map (suff (g_d a)) x)) as [z|e]; cbn [bind] in *; [|discriminate]. destruct (row_weights _ w) as [w'|e]; cbn [bind] in *; [|discriminate]. injection E as <- <- <-. exists c1. split; [reflexivity|]. split; assumption.
Qed.
Lemma same_estep a c x w b N u a' : same_but_pi a c -> g_estep a x w b = Ok (N, u, a') -> exists c', g_estep c x w b = Ok (N, u, c') /\ same_but_pi a' c' /\ g_logpi a' <> None.
Proof.
  destruct b as [b|]; cbn [g_estep]; [|apply same_accum]. intros H E. unfold g_accum_n in *. destruct (b =? 0)%Z; [discriminate|]. destruct (b <? 0)%Z; [discriminate|].
  set (n := Z.to_nat b) in *. clearbody n. set (step := fun (st : res (option (vec * (nat -> vec)) * gmm)) (i1 : nat) => _) in *.
  assert (G : forall l acc a c r a', same_but_pi a c -> (acc <> None -> g_logpi a <> None) -> fold_left step l (Ok (acc, a)) = Ok (r, a') -> exists c', fold_left step l (Ok (acc, c)) = Ok (r, c') /\ same_but_pi a' c' /\ (r <> None -> g_logpi a' <> None)).
  { clear. induction l as [|i l IH]; intros acc a c r a' H P E; [injection E as <- <-; exists c; split; [reflexivity|split; assumption]|]. change (fold_left step l (step (Ok (acc, a)) i) = Ok (r, a')) in E. change (exists c', fold_left step l (step (Ok (acc, c)) i) = Ok (r, c') /\ same_but_pi a' c' /\ (r <> None -> g_logpi a' <> None)).
    assert (FE : forall e, fold_left step l (Err e) <> Ok (r, a')) by (clear; induction l; intros e; simpl; [discriminate|apply IHl]).
    destruct (step (Ok (acc, a)) i) as [[acc1 a1]|e] eqn:ES; [|exfalso; exact (FE _ E)].
    assert (SC : exists c1, step (Ok (acc, c)) i = Ok (acc1, c1) /\ same_but_pi a1 c1 /\ g_logpi a1 <> None).
    { clear IH E. unfold step in *. cbn [bind] in *. destruct (g_accum_x a _ _) as [[[Ni ui] a2]|e] eqn:EA; cbn [bind] in ES; [|discriminate]. destruct (same_accum a c _ _ _ _ _ H EA) as (c1 & EC & H1 & H2). rewrite EC. cbn [bind]. exists c1.
      destruct acc as [[N0 u0]|]; injection ES as <- <-; (split; [reflexivity|split; assumption]). }
    destruct SC as (c1 & SC & H1 & H2). rewrite SC. apply (IH acc1 a1 c1 r a' H1); [intros _; exact H2|exact E]. }
  destruct (fold_left step _ (Ok (None, a))) as [[[[N0 u0]|] a1]|e] eqn:EF; cbn [bind] in E; try discriminate. injection E as <- <- <-.
  destruct (G _ None a c _ _ H (fun X => False_ind _ (X eq_refl)) EF) as (c1 & EC & H1 & H2). rewrite EC. cbn [bind]. exists c1. split; [reflexivity|]. split; [exact H1|]. apply H2. discriminate.
Qed.
Lemma same_mstep a c N u a' : same_but_pi a c -> g_logpi a <> None -> g_updpi c = false -> g_mstep a N u = Ok (Some a') -> exists c', g_mstep c N u = Ok (Some c') /\ same_but_pi a' c' /\ g_updpi c' = false.
Proof.
  intros H L U E. destruct H as (S1 & S2 & S3 & S4 & S5 & S6 & S7 & S8 & S9 & S10 & S11 & S12). pose proof (mstep_facts a N u a' E) as (A1 & A2 & A3 & A4 & A5 & A6 & A7 & _ & _ & _ & A11 & A12 & A13 & A14 & A15 & _).
  assert (X : exists c', g_mstep c N u = Ok (Some c')). { unfold g_mstep in *. rewrite S1, S8, S10 in E. destruct (existsb _ _); [discriminate|]. destruct (g_updL c && _); [discriminate|]. cbn [g_nat] in *. rewrite U. eexists. reflexivity. }
  destruct X as (c' & X). exists c'. split; [exact X|]. pose proof (mstep_facts c N u c' X) as (C1 & C2 & C3 & C4 & C5 & C6 & C7 & _ & _ & _ & C11 & C12 & C13 & C14 & C15 & _).
  assert (MU : g_mu a' = g_mu c') by (rewrite A3, C3, S9, S3; reflexivity). assert (LL : g_L a' = g_L c') by (rewrite A4, C4, S1, S2, S3, S4, S7, S8, S9, S10; reflexivity). assert (EE : g_eta a' = g_eta c') by (rewrite A5, C5, MU, LL, S2; reflexivity).
  split; [|congruence]. unfold same_but_pi. split; [congruence|]. split; [congruence|]. split; [exact MU|]. split; [exact LL|]. split; [exact EE|]. split; [rewrite A6, C6, EE, S2; reflexivity|]. repeat (split; [congruence|]). intros Q. congruence.
Qed.
Lemma same_elbo a c N u : same_but_pi a c -> fst (g_elbo a N u) = fst (g_elbo c N u) /\ same_but_pi (snd (g_elbo a N u)) (snd (g_elbo c N u)) /\ g_logpi (snd (g_elbo a N u)) <> None.
Proof.
  intros H. destruct (same_logpi a c H) as (H1 & H2 & H3). unfold g_elbo. destruct (get_logpi a) as [lp a1], (get_logpi c) as [lp' c1]. cbn [fst snd] in *. subst lp'. split; [|split; assumption].
  destruct H1 as (T1 & T2 & T3 & T4 & T5 & T6 & _). rewrite T1, T2, T5, T6. reflexivity.
Qed.
Lemma elbo_updpi g N u : g_updpi (snd (g_elbo g N u)) = g_updpi g.
Proof. unfold g_elbo, get_logpi. destruct (g_logpi g); reflexivity. Qed.
Lemma accum_updpi g x w N u g' : g_accum_x g x w = Ok (N, u, g') -> g_updpi g' = g_updpi g.
Proof.
  unfold g_accum_x, g_accum_1. destruct (get_logpi_facts g) as (_ & _ & _ & _ & _ & _ & _ & _ & _ & _ & _ & U & _). destruct (get_logpi g) as [lp g1]. cbn [snd] in U. destruct (mapM _ _); cbn [bind]; [|discriminate]. destruct (row_weights _ _); cbn [bind]; [|discriminate]. intros H. injection H as <- <- <-. exact U.
Qed.
Lemma estep_updpi g x w b N u g' : g_estep g x w b = Ok (N, u, g') -> g_updpi g' = g_updpi g.
Proof.
  destruct b as [b|]; cbn [g_estep]; [|apply accum_updpi]. unfold g_accum_n. destruct (b =? 0)%Z; [discriminate|]. destruct (b <? 0)%Z; [discriminate|]. set (n := Z.to_nat b). clearbody n. set (step := fun (st : res (option (vec * (nat -> vec)) * gmm)) (i1 : nat) => _).
  assert (G : forall l acc g r g', fold_left step l (Ok (acc, g)) = Ok (r, g') -> g_updpi g' = g_updpi g).
  { clear. induction l as [|i l IH]; intros acc g r g' E; [injection E as <- <-; reflexivity|]. change (fold_left step l (step (Ok (acc, g)) i) = Ok (r, g')) in E.
    assert (FE : forall e, fold_left step l (Err e) <> Ok (r, g')) by (clear; induction l; intros e; simpl; [discriminate|apply IHl]).
    destruct (step (Ok (acc, g)) i) as [[acc1 g1]|e] eqn:ES; [|exfalso; exact (FE _ E)]. rewrite (IH _ _ _ _ E). clear IH E FE. unfold step in ES. cbn [bind] in ES.
    destruct (g_accum_x g _ _) as [[[Ni ui] g2]|e] eqn:EA; cbn [bind] in ES; [|discriminate]. rewrite <- (accum_updpi _ _ _ _ _ _ EA). destruct acc as [[N0 u0]|]; injection ES as _ <-; reflexivity. }
  destruct (fold_left step _ (Ok (None, g))) as [[[[N0 u0]|] g1]|e] eqn:EF; cbn [bind]; try discriminate. intros H. injection H as <- <- <-. exact (G _ _ _ _ _ EF).
Qed.
Theorem C71_update_pi_ignored_refuted n a c x w b g es : same_but_pi a c -> g_updpi c = false -> g_epochs n a x w b = Ok (Some (g, es)) ->
  exists g', g_epochs n c x w b = Ok (Some (g', es)) /\ g_mu g' = g_mu g /\ g_L g' = g_L g /\ forall y, fst (get_logpi g') y = fst (get_logpi g) y.
Proof.
  intros H U E. assert (X : exists g', g_epochs n c x w b = Ok (Some (g', es)) /\ same_but_pi g g').
  { revert a c g es H U E. induction n as [|n IH]; intros a c g es H U E; [injection E as <- <-; exists c; split; [reflexivity|exact H]|]. cbn [g_epochs] in *.
    destruct (g_estep a x w b) as [[[N u] a1]|e] eqn:EA; cbn [bind] in E; [|discriminate]. destruct (same_estep a c x w b N u a1 H EA) as (c1 & EC & H1 & P1). rewrite EC. cbn [bind]. pose proof (estep_updpi _ _ _ _ _ _ _ EC) as U1.
    destruct (same_elbo a1 c1 N u H1) as (Q1 & Q2 & Q3). pose proof (elbo_updpi c1 N u) as U2. destruct (g_elbo a1 N u) as [ea a2], (g_elbo c1 N u) as [ec c2]. cbn [fst snd] in *. subst ec.
    destruct (g_mstep a2 N u) as [[a3|]|e] eqn:EM; cbn [bind] in E; try discriminate. destruct (same_mstep a2 c2 N u a3 Q2 Q3 ltac:(congruence) EM) as (c3 & EC3 & H3 & U3). rewrite EC3. cbn [bind].
    destruct (g_epochs n a3 x w b) as [[[g0 es0]|]|e] eqn:ER; cbn [bind] in E; try discriminate. injection E as <- <-. destruct (IH _ _ _ _ H3 U3 ER) as (g' & EG & HG). rewrite EG. cbn [bind]. exists g'. split; [reflexivity|exact HG]. }
  destruct X as (g' & X & HG). exists g'. split; [exact X|]. destruct (same_logpi g g' HG) as (_ & L & _). destruct HG as (_ & _ & M1 & M2 & _). split; [congruence|]. split; [congruence|]. intros y. rewrite L. reflexivity.
Qed.
(** A trained object and a new one with the same weights, means and precisions compute different posteriors. *)
Theorem C71_stale_weights_refuted : exists g g1 g2 fresh z z1 z2 h2 h3, let one := fun _ _ : nat => 1 in
  g_new 2 1 (fun _ => 1/2) (fun _ _ => 0) one (1/1000) 0 true true true = Ok g /\
  compute_pz g (suff 1 (fun _ => 0)) = Ok (z, g1) /\
  g_mstep g1 (fun k => if (k =? 0)%nat then 1 else 3) (fun k j => if (j =? 0)%nat then 0 else if (k =? 0)%nat then 1 else 3) = Ok (Some g2) /\
  (g_pi g2 0%nat = 1/4 /\ g_pi g2 1%nat = 3/4) /\
  g_new 2 1 (g_pi g2) (g_mu g2) (g_L g2) (1/1000) 0 true true true = Ok fresh /\
  compute_pz g2 (suff 1 (fun _ => 0)) = Ok (z1, h2) /\ compute_pz fresh (suff 1 (fun _ => 0)) = Ok (z2, h3) /\ nth 0 z1 0 = 1/2 /\ nth 0 z2 0 < 1/2.
Proof.
  set (N := fun k : nat => if (k =? 0)%nat then 1 else 3). set (u := fun k j : nat => if (j =? 0)%nat then 0 else if (k =? 0)%nat then 1 else 3).
  assert (Q1 : all_pos2 2 1 (fun _ _ => 1) = true) by (apply all_pos2_ok; intros; lra).
  destruct (g_new 2 1 (fun _ => 1/2) (fun _ _ => 0) (fun _ _ => 1) (1/1000) 0 true true true) as [g|e] eqn:G; [|unfold g_new in G; rewrite Q1 in G; discriminate].
  assert (M : g_made 2 1 g) by (refine (gm_new 2 1 _ _ _ _ _ _ _ _ g _ G); intros; lra).
  destruct (C71_responsibilities 2 1 g (fun _ => 0) ltac:(lia) M) as (z & g1 & E & _).
  assert (EG1 : g1 = snd (get_logpi g)). { unfold compute_pz in E. destruct (get_logpi g) as [lp g1']. destruct (softmax _); cbn [bind] in E; [|discriminate]. injection E as _ <-. reflexivity. }
  pose proof (C71_new_weights _ _ _ _ _ _ _ _ _ _ _ G) as (UG & MG & LG).
  assert (FG : g_K g = 2%nat /\ g_d g = 1%nat /\ g_updmu g = true /\ g_updL g = true /\ g_updpi g = true /\ g_minN g = 0 /\ g_floor g = 1/1000) by (unfold g_new in G; rewrite Q1 in G; cbn [g_nat] in G; injection G as <-; repeat split; reflexivity). destruct FG as (GK & GD & GM & GL & GP & GN & GF).
  destruct (get_logpi_facts g) as (F1 & F2 & F3 & F4 & F5 & F6 & F7 & F8 & F9 & F10 & F11 & F12 & F13 & F14 & F15 & F16). rewrite <- EG1 in *.
  assert (PN : forall k, 0 < N k) by (intros k; unfold N; destruct (k =? 0)%nat; lra).
  assert (MS : exists g2, g_mstep g1 N u = Ok (Some g2)).
  { unfold g_mstep. rewrite F1, GK, F14, GL, F11, GN, F12, GP. assert (X : existsb (fun k => if Req_EM_T (N k) 0 then true else false) (seq 0 2) = false).
    { apply Bool.not_true_iff_false. intros X. apply existsb_exists in X. destruct X as (k & _ & X). destruct (Req_EM_T (N k) 0); [|discriminate]. specialize (PN k). lra. } rewrite X.
    assert (X2 : existsb (fun k => Rltb 0 (N k)) (seq 0 2) = true). { apply existsb_exists. exists 0%nat. split; [simpl; lia|]. unfold Rltb. destruct (Rlt_dec 0 (N 0%nat)); [reflexivity|]. specialize (PN 0%nat). contradiction. } rewrite X2. cbn [andb negb g_nat].
    assert (X3 : existsb (fun k => Rltb (N k) 0) (seq 0 2) = false). { apply Bool.not_true_iff_false. intros Y. apply existsb_exists in Y. destruct Y as (k & _ & Y). unfold Rltb in Y. destruct (Rlt_dec (N k) 0); [|discriminate]. specialize (PN k). lra. } rewrite X3. eexists. reflexivity. }
  destruct MS as (g2 & MS). destruct (mstep_facts g1 N u g2 MS) as (G1 & G2 & G3 & G4 & _ & _ & _ & _ & _ & G10 & _). rewrite F13, GM in G3, G4. rewrite F14, GL in G4. rewrite F12, GP in G10. rewrite F1, F2, F10, F11, GK, GD, GF, GN in *.
  assert (MU2 : forall k j, (j < 1)%nat -> g_mu g2 k j = 0). { intros k j J. rewrite G3. assert (j = 0%nat) as -> by lia. unfold u, N. simpl. destruct (k =? 0)%nat; field. }
  assert (S1 : forall k j, (j < 1)%nat -> u k (1 + j)%nat / N k - u k j / N k * (u k j / N k) = 1). { intros k j J. assert (j = 0%nat) as -> by lia. unfold u, N. simpl. destruct (k =? 0)%nat; field. }
  assert (L2 : forall k j, (j < 1)%nat -> g_L g2 k j = 1). { intros k j J. rewrite G4, (S1 k j J). unfold s_floor.
    assert (FE : filter (fun k => Rltb 0 (N k)) (seq 0 2) = [0; 1]%nat) by (simpl; unfold Rltb; destruct (Rlt_dec 0 (N 0%nat)); [|exfalso; specialize (PN 0%nat); contradiction]; destruct (Rlt_dec 0 (N 1%nat)); [reflexivity|exfalso; specialize (PN 1%nat); contradiction]).
    rewrite FE. cbn [map]. rewrite !S1 by exact J. unfold Rsum. simpl. rewrite Rmax_left; [field|]. lra. }
  assert (PI0 : g_pi g2 0%nat = 1/4) by (rewrite G10; unfold sumn, Rsum, N; simpl; field). assert (PI1 : g_pi g2 1%nat = 3/4) by (rewrite G10; unfold sumn, Rsum, N; simpl; field).
  assert (M1 : g_made 2 1 g1) by (rewrite EG1; apply gm_logpi; exact M).
  assert (M2 : g_made 2 1 g2) by (apply (gm_mstep 2 1 g1 N u); [exact M1|auto|exact MS|intros k j _ J; rewrite L2 by exact J; lra]).
  destruct (g_new 2 1 (g_pi g2) (g_mu g2) (g_L g2) (1/1000) 0 true true true) as [f|e] eqn:NF; [|unfold g_new in NF; assert (Q2 : all_pos2 2 1 (g_L g2) = true) by (apply all_pos2_ok; intros; rewrite L2 by assumption; lra); rewrite Q2 in NF; discriminate].
  pose proof (C71_new_weights _ _ _ _ _ _ _ _ _ _ _ NF) as (UF & MF & LF).
  assert (MFr : g_made 2 1 f). { refine (gm_new 2 1 _ _ _ _ _ _ _ _ f _ NF). intros k Hk. destruct k as [|[|k]]; [rewrite PI0; lra|rewrite PI1; lra|lia]. }
  destruct (C71_responsibilities 2 1 g2 (fun _ => 0) ltac:(lia) M2) as (z1 & h2 & E1 & _ & R1 & _). destruct (C71_responsibilities 2 1 f (fun _ => 0) ltac:(lia) MFr) as (z2 & h3 & E2 & _ & R2 & _).
  exists g, g1, g2, f, z, z1, z2, h2, h3. cbv zeta. split; [exact G|]. split; [exact E|]. split; [exact MS|]. split; [split; assumption|]. split; [exact NF|]. split; [exact E1|]. split; [exact E2|].
  destruct (R1 0%nat ltac:(lia)) as [-> _]. destruct (R2 0%nat ltac:(lia)) as [-> _].
  pose proof (g_made_inv 2 1 g M) as I. pose proof pi_eps_pos as EP. assert (U2 : forall k, (k < 2)%nat -> used g2 k = 1/2 + / 10 ^ 15). { intros k Hk. rewrite (used_after_estep g g1 N u g2 EG1 MS); [rewrite UG; reflexivity|]. destruct I as (_ & _ & _ & _ & _ & _ & I7). apply I7. exact Hk. }
  assert (CD : forall h k, (forall j, (j < 1)%nat -> g_mu h k j = 0) -> (forall j, (j < 1)%nat -> g_L h k j = 1) -> comp_dens 1 (g_mu h k) (g_L h k) (fun _ => 0) = gauss 0 1 0) by (intros h k A B; unfold comp_dens, prodn; simpl; rewrite A, B by lia; ring).
  assert (GP0 : 0 < gauss 0 1 0) by (apply gauss_pos; lra). unfold resp, mix_dens, sumn. cbn [seq map]. unfold Rsum. cbn [fold_right]. rewrite !(CD g2) by (intros; auto). rewrite !(CD f) by (intros; rewrite ?MF, ?LF; auto). rewrite !U2 by lia. rewrite UF, PI0, PI1. set (c := gauss 0 1 0) in *. set (e := / 10 ^ 15) in *.
  split; [field; nra|]. apply (Rmult_lt_reg_r ((1 / 4 + e) * c + ((3 / 4 + e) * c + 0))); [nra|]. unfold Rdiv at 1. rewrite Rmult_assoc, Rinv_l by nra. nra.
Qed.

(** *** Other findings *)
(** A component with fewer counts than min_N makes an M-step that updates the weights fail. *)
Theorem C71_small_count_refuted g N u k : (k < g_K g)%nat -> (forall i, (i < g_K g)%nat -> N i <> 0) -> N k < g_minN g -> g_updpi g = true -> g_updL g = false -> g_mstep g N u = Err NameError.
Proof.
  intros Hk NZ S UP UL. unfold g_mstep. assert (X : existsb (fun k => if Req_EM_T (N k) 0 then true else false) (seq 0 (g_K g)) = false).
  { apply Bool.not_true_iff_false. intros X. apply existsb_exists in X. destruct X as (i & Hi & X). apply in_seq in Hi. destruct (Req_EM_T (N i) 0); [|discriminate]. apply (NZ i); [lia|assumption]. }
  rewrite X, UL, UP. cbn [andb g_nat]. assert (X3 : existsb (fun k => Rltb (N k) (g_minN g)) (seq 0 (g_K g)) = true). { apply existsb_exists. exists k. split; [apply in_seq; lia|]. unfold Rltb. destruct (Rlt_dec _ _); [reflexivity|contradiction]. } rewrite X3. reflexivity.
Qed.
(** With fixed means the M-step can produce negative precisions, from the statistics of actual data. *)
Theorem C71_fixed_mean_refuted : exists g N u g1 g2, g_new 1 1 (fun _ => 1) (fun _ _ => 2) (fun _ _ => 1) (1/1000) 0 true false true = Ok g /\
  g_estep g [fun _ => 0] None None = Ok (N, u, g1) /\ g_mstep g1 N u = Ok (Some g2) /\ g_L g2 0%nat 0%nat < 0.
Proof.
  assert (Q1 : all_pos2 1 1 (fun _ _ => 1) = true) by (apply all_pos2_ok; intros; lra).
  destruct (g_new 1 1 (fun _ => 1) (fun _ _ => 2) (fun _ _ => 1) (1/1000) 0 true false true) as [g|e] eqn:G; [|unfold g_new in G; rewrite Q1 in G; discriminate].
  assert (M : g_made 1 1 g) by (refine (gm_new 1 1 _ _ _ _ _ _ _ _ g _ G); intros; lra).
  assert (FG : g_K g = 1%nat /\ g_d g = 1%nat /\ g_updmu g = false /\ g_updL g = true /\ g_updpi g = true /\ g_minN g = 0 /\ g_floor g = 1/1000 /\ g_mu g = fun _ _ => 2) by (unfold g_new in G; rewrite Q1 in G; cbn [g_nat] in G; injection G as <-; repeat split; reflexivity). destruct FG as (GK & GD & GM & GL & GP & GN & GF & GMU).
  pose proof (g_made_inv 1 1 g M) as I. destruct (g_estep_ok 1 1 g [fun _ => 0] None None ltac:(lia) I Logic.I ltac:(discriminate) Logic.I) as (N & u & E & S). set (g1 := snd (get_logpi g)) in *. pose proof (get_logpi_facts g) as FF. cbv zeta in FF. fold g1 in FF. destruct FF as (F1 & F2 & F3 & F4 & F5 & F6 & F7 & F8 & F9 & F10 & F11 & F12 & F13 & F14 & F15 & F16).
  destruct (S 0%nat ltac:(lia)) as [S1 S2]. destruct (S2 0%nat ltac:(lia)) as [_ S3]. cbv zeta in *.
  assert (R1 : forall r, resp 1 1 (used g) (g_mu g) (g_L g) 0 r = 1). { intros r. pose proof (resp_sum 1 1 g r ltac:(lia) I) as RS. unfold sumn, Rsum in RS. simpl in RS. lra. }
  assert (N1 : N 0%nat = 1) by (rewrite S1; unfold total, Rsum; simpl; rewrite R1; ring). assert (U1 : u 0%nat 1%nat = 0) by (change 1%nat with (1 + 0)%nat; rewrite S3; unfold total, Rsum; simpl; ring).
  assert (MS : exists g2, g_mstep g1 N u = Ok (Some g2)).
  { unfold g_mstep. rewrite F1, GK, F14, GL, F11, GN, F12, GP. cbn [seq existsb]. rewrite N1. destruct (Req_EM_T 1 0); [lra|]. unfold Rltb. destruct (Rlt_dec 0 1); [|lra]. destruct (Rlt_dec 1 0); [lra|]. cbn [orb andb negb g_nat]. eexists. reflexivity. }
  destruct MS as (g2 & MS). exists g, N, u, g1, g2. split; [reflexivity|]. split; [exact E|]. split; [exact MS|].
  destruct (mstep_facts g1 N u g2 MS) as (_ & _ & _ & G4 & _). rewrite F13, GM, F14, GL, F1, F2, F10, F11, F3, GK, GD, GF, GN, GMU in G4. rewrite G4. unfold s_floor. cbn [seq filter]. rewrite N1. unfold Rltb. destruct (Rlt_dec 0 1); [|lra]. cbn [map Nat.add]. rewrite N1, U1. unfold Rsum. simpl.
  rewrite Rmax_right by lra. match goal with |- 1 / ?a < 0 => assert (A : a < 0) by lra end. apply Rmult_lt_reg_r with (r := 1000); [lra|]. match goal with |- 1 / ?a * 1000 < _ => replace (1 / a * 1000) with (-250000) by (field; lra) end. lra.
Qed.
(** normalised statistics cannot be computed *)
Theorem C71_norm_stats_refuted g N u : g_norm_stats g N u = Err NameError. Proof. reflexivity. Qed.

(** *** Splitting the components in two *)
Lemma sumn_pairs K f : sumn (2 * K) f = sumn K (fun k => f (2 * k)%nat + f (2 * k + 1)%nat).
Proof. induction K as [|K IH]; [reflexivity|]. replace (2 * S K)%nat with (S (S (2 * K))) by lia. rewrite !sumn_S, IH. replace (2 * K + 1)%nat with (S (2 * K)) by lia. ring. Qed.
Lemma half_even k : (2 * k / 2 = k)%nat. Proof. rewrite Nat.mul_comm. apply Nat.div_mul. lia. Qed.
Lemma half_odd k : ((2 * k + 1) / 2 = k)%nat. Proof. symmetry. apply (Nat.div_unique (2 * k + 1) 2 k 1); lia. Qed.
(** The weights still add up to the same value, the mean of the mixture is unchanged, and each component becomes two, one standard
    deviation to either side, with half the deviation. *)
Theorem C71_split K d g : g_made K d g -> (forall k, (k < K)%nat -> 0 <= g_pi g k) -> exists g', g_split2 g = Ok g' /\ g_made (2 * K) d g' /\
  sumn (2 * K) (g_pi g') = sumn K (g_pi g) /\ (forall j, (j < d)%nat -> sumn (2 * K) (fun k => g_pi g' k * g_mu g' k j) = sumn K (fun k => g_pi g k * g_mu g k j)) /\
  (forall k j, (k < K)%nat -> (j < d)%nat -> let sd := sqrt (1 / g_L g k j) in
     g_mu g' (2 * k)%nat j = g_mu g k j + sd /\ g_mu g' (2 * k + 1)%nat j = g_mu g k j - sd /\
     sqrt (1 / g_L g' (2 * k)%nat j) = sd / 2 /\ sqrt (1 / g_L g' (2 * k + 1)%nat j) = sd / 2).
Proof.
  intros M P. pose proof (g_made_inv K d g M) as (I1 & I2 & I3 & I4 & I5 & I6 & I7). unfold g_split2.
  assert (CH : forall k j, (k < K)%nat -> (j < d)%nat -> fst (get_gchol g) k j = sqrt (g_L g k j)). { intros k j Hk J. unfold get_gchol. destruct (g_chol g) eqn:Q; [apply (I6 _ eq_refl); assumption|reflexivity]. }
  assert (FF : let h := snd (get_gchol g) in g_K h = K /\ g_d h = d /\ g_pi h = g_pi g /\ g_mu h = g_mu g /\ g_L h = g_L g) by (unfold get_gchol; destruct (g_chol g); repeat split; assumption). destruct (get_gchol g) as [ch h]. cbn [fst snd] in *. cbv zeta in FF. destruct FF as (-> & -> & H3 & H4 & H5). rewrite H3, H4, H5.
  unfold g_new. assert (AP : all_pos2 (2 * K) d (fun k j => g_L g (k / 2)%nat j * 4) = true). { apply all_pos2_ok. intros k j Hk J. assert (k / 2 < K)%nat by (apply Nat.div_lt_upper_bound; lia). specialize (I3 (k / 2)%nat j ltac:(assumption) J). lra. }
  match goal with |- context [if ?c then _ else _] => change c with (all_pos2 (2 * K) d (fun k j => g_L g (k / 2)%nat j * 4)); rewrite AP end. cbn [g_nat].
  match goal with |- exists g', Ok ?g0 = _ /\ _ => set (g' := g0) end. exists g'. split; [reflexivity|]. split.
  { eapply gm_new; [|unfold g_new; rewrite AP; cbn [g_nat]; reflexivity]. intros k Hk. cbv beta. assert (k / 2 < K)%nat by (apply Nat.div_lt_upper_bound; lia). specialize (P (k / 2)%nat ltac:(assumption)). lra. }
  unfold g'. cbn [g_pi g_mu g_L]. split; [rewrite sumn_pairs; apply sumn_ext; intros k Hk; cbv beta; rewrite half_even, half_odd; field|].
  assert (EV : forall k, Nat.even (2 * k) = true /\ Nat.even (2 * k + 1) = false). { intros k. rewrite Nat.even_mul, Nat.even_add, Nat.even_mul. split; reflexivity. }
  split. { intros j J. rewrite sumn_pairs. apply sumn_ext. intros k Hk. cbv beta. rewrite half_even, half_odd. destruct (EV k) as [-> ->]. field. rewrite (CH k j Hk J). apply Rgt_not_eq, sqrt_lt_R0, I3; assumption. }
  intros k j Hk J. cbv zeta. rewrite half_even, half_odd. destruct (EV k) as [-> ->]. rewrite (CH k j Hk J). pose proof (I3 k j Hk J) as L.
  assert (SD : 1 / sqrt (g_L g k j) = sqrt (1 / g_L g k j)) by (rewrite sqrt_div_alt by exact L; rewrite sqrt_1; reflexivity).
  assert (S4 : sqrt (1 / (g_L g k j * 4)) = sqrt (1 / g_L g k j) / 2). { rewrite !sqrt_div_alt by lra. rewrite sqrt_mult by lra. replace 4 with (2 * 2) by ring. rewrite sqrt_square by lra. field. apply Rgt_not_eq, sqrt_lt_R0, L. }
  rewrite SD, S4. repeat split; ring.
Qed.
(** The options min_N and update_Lambda of the object are lost. *)
Theorem C71_split_config_refuted g g' : g_split2 g = Ok g' -> g_minN g' = 0 /\ g_updL g' = true.
Proof. unfold g_split2. destruct (get_gchol g) as [ch h]. unfold g_new. destruct (all_pos2 _ _ _); [|discriminate]. cbn [g_nat]. intros H. injection H as <-. split; reflexivity. Qed.

Example C71_witness : exists g N u g1 g2, let x := [fun _ : nat => 0; fun _ : nat => 4] in
  g_new 2 1 (fun _ => 1/2) (fun k _ => INR k) (fun _ _ => 1) 0 0 true true false = Ok g /\ g_made 2 1 g /\ g_estep g x None (Some 1%Z) = Ok (N, u, g1) /\ g_mstep g1 N u = Ok (Some g2) /\ g_made 2 1 g2 /\
  total x None (fun r => ln (mix_dens 2 1 (used g) (g_mu g) (g_L g) r)) <= total x None (fun r => ln (mix_dens 2 1 (used g2) (g_mu g2) (g_L g2) r)).
Proof.
  assert (Q1 : all_pos2 2 1 (fun _ _ => 1) = true) by (apply all_pos2_ok; intros; lra).
  destruct (g_new 2 1 (fun _ => 1/2) (fun k _ => INR k) (fun _ _ => 1) 0 0 true true false) as [g|e] eqn:G; [|unfold g_new in G; rewrite Q1 in G; discriminate].
  assert (M : g_made 2 1 g) by (refine (gm_new 2 1 _ _ _ _ _ _ _ _ g _ G); intros; lra).
  assert (FG : g_updmu g = true /\ g_updL g = false /\ g_minN g = 0) by (unfold g_new in G; rewrite Q1 in G; cbn [g_nat] in G; injection G as <-; repeat split; reflexivity). destruct FG as (UM & UL & MN).
  set (x := [fun _ : nat => 0; fun _ : nat => 4]). assert (T : 0 < total x None (fun _ => 1)) by (unfold total, Rsum; simpl; lra).
  assert (BIG : forall k, (k < 2)%nat -> g_minN g < count_of 2 1 g x None k) by (intros k Hk; rewrite MN; apply count_pos; [apply g_made_inv; exact M|exact Logic.I|exact Logic.I|exact T|exact Hk]).
  destruct (C71_mstep 2 1 g x None (Some 1%Z) ltac:(lia) M UM Logic.I Logic.I ltac:(discriminate) T ltac:(simpl; lia) BIG) as (N & u & g1 & g2 & E & MS & _).
  assert (ND : g_updL g = true -> forall k j, (k < 2)%nat -> (j < 1)%nat -> let fl := vfloor 2 1 g x None (g_floor g) (g_minN g) j in fl <= 1 / g_L g k j /\ 0 < Rmax (cvar 2 1 g x None k j) fl) by (intros X; congruence).
  destruct (C71_em_increases 2 1 g x None (Some 1%Z) N u g1 g2 ltac:(lia) M UM Logic.I Logic.I ltac:(discriminate) T ltac:(simpl; lia) BIG ND E MS) as (M2 & _ & Q).
  exists g, N, u, g1, g2. cbv zeta. split; [reflexivity|]. split; [exact M|]. split; [exact E|]. split; [exact MS|]. split; [exact M2|exact Q].
Qed.
Print Assumptions C71_em_increases.
Print Assumptions C71_update_pi_ignored_refuted.
