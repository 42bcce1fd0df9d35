(** The diagonal Normal distribution (C70). *)
From Coq Require Import Reals Lra Lia Psatz FunctionalExtensionality.
From Verif Require Import Base BaseFacts ScoreNorm ScoreNormProps NormalDiag.
Open Scope list_scope. Open Scope R_scope.

(** ** Specification *)
(** density of a Normal variable with mean m and precision (inverse variance) l, and of a vector of independent ones *)
Definition gauss (m l x : R) : R := sqrt (l / (2 * PI)) * exp (- (l * (x - m)²) / 2).
Definition log_lik (d : nat) (mu L : nat -> R) (x : nat -> R) : R := sumn d (fun j => ln (gauss (mu j) (L j) (x j))).
(** weighted sum over data; without weights every row counts once *)
Definition weights {X} (x : list X) (w : option (list R)) : list R := match w with None => map (fun _ => 1) x | Some w => w end.
Definition total {X} (x : list X) (w : option (list R)) (f : X -> R) : R := Rsum (map (fun rv => snd rv * f (fst rv)) (combine x (weights x w))).
Definition fits {X} (x : list X) (w : option (list R)) : Prop := match w with None => True | Some w => List.length w = List.length x end.
Definition pos_weights (w : option (list R)) : Prop := match w with None => True | Some w => Forall (fun v => 0 <= v) w end.
Definition good_batch (b : option Z) : Prop := match b with None => True | Some b => (0 < b)%Z end.
(** objects made by the constructor (mu and Lambda, or natural parameters of a proper distribution, or nothing), by M-steps with a
    positive count, and by reading the cached properties *)
Inductive made (d : nat) : nd -> Prop :=
| made_std mu L eta fl um ul o : 0 < fl -> new d (Some mu) (Some L) eta fl um ul = Ok o -> made d o
| made_nat mu eta fl um ul o : 0 < fl -> (forall j, (j < d)%nat -> eta (d + j)%nat < 0) -> new d mu None (Some eta) fl um ul = Ok o -> made d o
| made_none mu fl um ul o : 0 < fl -> new d mu None None fl um ul = Ok o -> made d o
| made_mstep o N u o' : made d o -> 0 < N -> mstep o N u = Ok o' -> made d o'
| made_logL o v o' : made d o -> get_logL o = Ok (v, o') -> made d o'
| made_chol o v o' : made d o -> get_chol o = Ok (v, o') -> made d o'
| made_sigma o v o' : made d o -> get_sigma o = Ok (v, o') -> made d o'.

(** ** Proofs *)
Lemma sumn_ext n f g : (forall j, (j < n)%nat -> f j = g j) -> sumn n f = sumn n g.
Proof. intros H. unfold sumn. apply Rsum_ext. intros j J. apply in_seq in J. apply H. lia. Qed.
Lemma sumn_add n f g : sumn n (fun j => f j + g j) = sumn n f + sumn n g.
Proof. apply Rsum_map_add. Qed.
Lemma sumn_mul n c f : sumn n (fun j => c * f j) = c * sumn n f.
Proof. apply Rsum_map_mul. Qed.
Lemma sumn_sub n f g : sumn n (fun j => f j - g j) = sumn n f - sumn n g.
Proof. unfold Rminus. rewrite sumn_add. f_equal. rewrite <- (Rmult_1_l (sumn n g)), Ropp_mult_distr_l, <- sumn_mul. apply sumn_ext. intros. lra. Qed.
Lemma sumn_const n c : sumn n (fun _ => c) = c * INR n.
Proof. unfold sumn. rewrite Rsum_const, seq_length. reflexivity. Qed.
Lemma sumn_le n f g : (forall j, (j < n)%nat -> f j <= g j) -> sumn n f <= sumn n g.
Proof.
  unfold sumn. intros H. assert (G : forall s, (forall j, (s <= j < s + n)%nat -> f j <= g j) -> Rsum (map f (seq s n)) <= Rsum (map g (seq s n))).
  { clear H. induction n as [|n IH]; intros s H; simpl; [lra|]. pose proof (H s ltac:(lia)). pose proof (IH (S s) ltac:(intros; apply H; lia)). lra. }
  apply G. intros j J. apply H. lia.
Qed.
Lemma Rsum_app a b : Rsum (a ++ b) = Rsum a + Rsum b.
Proof. induction a as [|x a IH]; simpl; [lra|rewrite IH; lra]. Qed.
Lemma sumn_split d e f : sumn (d + e) f = sumn d f + sumn e (fun j => f (d + j)%nat).
Proof.
  unfold sumn. rewrite seq_app, map_app, Rsum_app. f_equal. rewrite <- (Nat.add_0_r (0 + d)) at 1. simpl (0 + d)%nat. generalize 0%nat at 1 2 as s. induction e as [|e IH]; intros s; [reflexivity|]. simpl. f_equal. rewrite <- IH. do 3 f_equal. lia.
Qed.
Lemma sumn_double d f : sumn (2 * d) f = sumn d f + sumn d (fun j => f (d + j)%nat).
Proof. replace (2 * d)%nat with (d + d)%nat by lia. apply sumn_split. Qed.
Lemma two_pi_pos : 0 < 2 * PI. Proof. pose proof PI_RGT_0. lra. Qed.
Lemma ln_gauss m l x : 0 < l -> ln (gauss m l x) = 1/2 * ln l - 1/2 * ln (2 * PI) - 1/2 * (l * (x - m)²).
Proof.
  intros L. pose proof two_pi_pos as P. unfold gauss. assert (Q : 0 < l / (2 * PI)) by (apply Rdiv_lt_0_compat; assumption).
  rewrite ln_mult; [|apply sqrt_lt_R0; exact Q|apply exp_pos]. rewrite ln_exp.
  assert (E : ln (sqrt (l / (2 * PI))) = 1/2 * ln (l / (2 * PI))). { rewrite <- (sqrt_sqrt (l / (2 * PI))) at 2 by lra. rewrite ln_mult by (apply sqrt_lt_R0; exact Q). lra. }
  rewrite E. unfold Rdiv at 2. rewrite ln_mult; [|exact L|apply Rinv_0_lt_compat; exact P]. rewrite ln_Rinv by exact P. lra.
Qed.
Lemma A_eq d mu L : (forall j, (j < d)%nat -> 0 < L j) -> A_nat d (compute_eta d mu L) = A_std d mu L.
Proof.
  intros P. unfold A_nat, A_std. rewrite <- !sumn_mul, !Rplus_assoc. f_equal. rewrite <- !sumn_add. apply sumn_ext. intros j J. unfold compute_eta.
  destruct (Nat.ltb_spec j d); [|lia]. destruct (Nat.ltb_spec (d + j) d); [lia|]. replace (d + j - d)%nat with j by lia.
  replace (- 2 * (- (1/2) * L j)) with (L j) by lra. specialize (P j J). field. lra.
Qed.
Definition eta_of (d : nat) (eta mu L : nat -> R) : Prop := forall j, (j < 2 * d)%nat -> eta j = compute_eta d mu L j.
Lemma A_ext d e e' : (forall j, (j < 2 * d)%nat -> e j = e' j) -> A_nat d e = A_nat d e'.
Proof. intros E. unfold A_nat. rewrite (sumn_ext d _ (fun j => e' j * e' j / e' (d + j)%nat)), (sumn_ext d (fun j => ln (- 2 * e (d + j)%nat)) (fun j => ln (- 2 * e' (d + j)%nat))); [reflexivity| |]; intros j J; rewrite !E by lia; reflexivity. Qed.
(** inner product of the statistics with the natural parameters minus the normaliser, for statistics N, F, S *)
Lemma nat_form d mu L eta A N u : (forall j, (j < d)%nat -> 0 < L j) -> eta_of d eta mu L -> A = A_nat d eta ->
  0 + sumn (2 * d) (fun j => u j * eta j) - N * A =
  sumn d (fun j => N * (1/2 * ln (L j) - 1/2 * ln (2 * PI)) - 1/2 * (L j * (u (d + j)%nat - 2 * mu j * u j + N * (mu j * mu j)))).
Proof.
  intros P E ->. rewrite (A_ext d eta (compute_eta d mu L) E), A_eq by exact P. unfold A_std. rewrite Rplus_0_l, sumn_double.
  replace (N * (1 / 2 * INR d * ln (2 * PI) + - (1 / 2) * sumn d (fun j => ln (L j)) + 1 / 2 * sumn d (fun j => mu j * mu j * L j)))
    with (sumn d (fun _ => N * (1/2 * ln (2 * PI))) + (sumn d (fun j => N * (- (1/2) * ln (L j))) + sumn d (fun j => N * (1/2 * (mu j * mu j * L j)))))
    by (rewrite sumn_const, !sumn_mul; ring).
  rewrite <- !sumn_add, <- sumn_sub. apply sumn_ext. intros j J.
  rewrite !E by lia. unfold compute_eta. destruct (Nat.ltb_spec j d); [|lia]. destruct (Nat.ltb_spec (d + j) d); [lia|]. replace (d + j - d)%nat with j by lia. lra.
Qed.
Lemma log_lik_form d mu L x : (forall j, (j < d)%nat -> 0 < L j) ->
  log_lik d mu L x = sumn d (fun j => 1/2 * ln (L j) - 1/2 * ln (2 * PI) - 1/2 * (L j * (x j * x j - 2 * mu j * x j + mu j * mu j))).
Proof. intros P. unfold log_lik. apply sumn_ext. intros j J. rewrite ln_gauss by auto. unfold Rsqr. lra. Qed.

(** the invariant of the objects *)
Definition coherent (o : nd) (L : nat -> R) : Prop :=
  (forall v, n_logL o = Some v -> v = sumn (n_dim o) (fun j => ln (L j))) /\
  (forall v, n_chol o = Some v -> forall j, (j < n_dim o)%nat -> v j = sqrt (L j)) /\
  (forall v, n_sigma o = Some v -> forall j, (j < n_dim o)%nat -> v j = 1 / L j).
Definition Inv (d : nat) (o : nd) : Prop := n_dim o = d /\ 0 < n_floor o /\
  match n_nat o with
  | Some (eta, A) => exists mu L, n_mu o = Some mu /\ n_Lambda o = Some L /\ (forall j, (j < d)%nat -> 0 < L j) /\ eta_of d eta mu L /\ A = A_nat d eta /\ coherent o L
  | None => n_Lambda o = None /\ n_logL o = None /\ n_chol o = None /\ n_sigma o = None
  end.
Lemma all_pos_ok d L : all_pos d L = true <-> forall j, (j < d)%nat -> 0 < L j.
Proof.
  unfold all_pos. rewrite forallb_forall. split; intros H j J.
  - specialize (H j ltac:(apply in_seq; lia)). destruct (Rlt_dec 0 (L j)); [assumption|discriminate].
  - apply in_seq in J. destruct (Rlt_dec 0 (L j)); [reflexivity|]. exfalso. apply n. apply H. lia.
Qed.
Lemma floored_ge f s : f <= floored f s /\ s <= floored f s.
Proof. unfold floored. destruct (Rlt_dec s f); lra. Qed.
Lemma mstep_inv d o N u o' : Inv d o -> 0 < N -> mstep o N u = Ok o' -> Inv d o'.
Proof.
  intros (D & F & I) HN M. unfold mstep in M. rewrite D in M.
  set (mu := if n_updmu o then Some (fun j => u j / N) else n_mu o) in *. destruct mu as [m|]; [|discriminate]. destruct (n_updL o) eqn:UL.
  - injection M as <-. split; [reflexivity|]. split; [exact F|]. simpl. eexists _, _. split; [reflexivity|]. split; [reflexivity|].
    assert (P : forall j, 0 < floored (n_floor o) (u (d + j)%nat / N - m j * m j)) by (intros j; pose proof (floored_ge (n_floor o) (u (d + j)%nat / N - m j * m j)); lra).
    split; [intros j _; apply Rdiv_lt_0_compat; [lra|apply P]|]. split; [intros j _; reflexivity|]. split; [reflexivity|]. split; [intros v V; discriminate|]. split; [intros v V; discriminate|].
    intros v V. injection V as <-. intros j _. specialize (P j). field. lra.
  - destruct (n_Lambda o) as [l|] eqn:L; [|discriminate]. injection M as <-. split; [reflexivity|]. split; [exact F|]. simpl.
    destruct (n_nat o) as [[eta A]|] eqn:NN; [|destruct I as [I _]; congruence]. destruct I as (mu0 & L0 & I1 & I2 & I3 & I4 & I5 & I6). injection I2 as <-. eexists _, _. split; [reflexivity|]. split; [reflexivity|].
    split; [exact I3|]. split; [intros j _; reflexivity|]. split; [reflexivity|]. destruct I6 as (C1 & C2 & C3). rewrite D in *. split; [exact C1|split; [exact C2|exact C3]].
Qed.
Lemma made_inv d o : made d o -> Inv d o.
Proof.
  induction 1 as [mu L eta fl um ul o F H|mu eta fl um ul o F E H|mu fl um ul o F H|o N u o' M IH HN H|o v o' M IH H|o v o' M IH H|o v o' M IH H].
  - unfold new in H. destruct (all_pos d L) eqn:P; [|discriminate]. injection H as <-. split; [reflexivity|]. split; [exact F|]. simpl. eexists _, _. split; [reflexivity|]. split; [reflexivity|].
    split; [apply all_pos_ok; exact P|]. split; [intros j _; reflexivity|]. split; [reflexivity|]. split; [|split]; intros v V; discriminate.
  - unfold new in H. assert (H' : mk_nd d (Some (fst (compute_std d eta))) (Some (snd (compute_std d eta))) (Some (eta, A_nat d eta)) None None None fl um ul = o) by (destruct mu; simpl in H; injection H as <-; reflexivity). subst o.
    split; [reflexivity|]. split; [exact F|]. simpl. eexists _, _. split; [reflexivity|]. split; [reflexivity|]. split; [intros j J; specialize (E j J); simpl; lra|]. split; [|split; [reflexivity|split; [|split]; intros v V; discriminate]].
    intros j J. unfold compute_eta, compute_std. simpl. destruct (Nat.ltb_spec j d) as [B|B].
    + specialize (E j B). field. lra.
    + replace (d + (j - d))%nat with j by lia. lra.
  - unfold new in H. assert (H' : mk_nd d mu None None None None None fl um ul = o) by (destruct mu; injection H as <-; reflexivity). subst o. split; [reflexivity|]. split; [exact F|]. simpl. auto.
  - exact (mstep_inv d o N u o' IH HN H).
  - unfold get_logL in H. pose proof IH as IH0. destruct IH as (D & F & I). destruct (n_logL o) as [c|] eqn:C; [injection H as <- <-; exact IH0|]. unfold is_init in H. destruct (n_nat o) as [[eta A]|] eqn:NN; [|discriminate H]. cbn in H.
    destruct I as (mu0 & L0 & I1 & I2 & I3 & I4 & I5 & C1 & C2 & C3). rewrite I2 in H. injection H as <- <-. split; [exact D|]. split; [exact F|]. simpl. exists mu0, L0. split; [assumption|]. split; [reflexivity|]. split; [assumption|]. split; [assumption|]. split; [assumption|].
    split; [|split; [exact C2|exact C3]]. intros w W. injection W as <-. reflexivity.
  - unfold get_chol in H. pose proof IH as IH0. destruct IH as (D & F & I). destruct (n_chol o) as [c|] eqn:C; [injection H as <- <-; exact IH0|]. unfold is_init in H. destruct (n_nat o) as [[eta A]|] eqn:NN; [|discriminate H]. cbn in H.
    destruct I as (mu0 & L0 & I1 & I2 & I3 & I4 & I5 & C1 & C2 & C3). rewrite I2 in H. injection H as <- <-. split; [exact D|]. split; [exact F|]. simpl. exists mu0, L0. split; [assumption|]. split; [reflexivity|]. split; [assumption|]. split; [assumption|]. split; [assumption|].
    split; [exact C1|split; [|exact C3]]. intros w W. injection W as <-. reflexivity.
  - unfold get_sigma in H. pose proof IH as IH0. destruct IH as (D & F & I). destruct (n_sigma o) as [c|] eqn:C; [injection H as <- <-; exact IH0|]. unfold is_init in H. destruct (n_nat o) as [[eta A]|] eqn:NN; [|discriminate H]. cbn in H.
    destruct I as (mu0 & L0 & I1 & I2 & I3 & I4 & I5 & C1 & C2 & C3). rewrite I2 in H. injection H as <- <-. split; [exact D|]. split; [exact F|]. simpl. exists mu0, L0. split; [assumption|]. split; [reflexivity|]. split; [assumption|]. split; [assumption|]. split; [assumption|].
    split; [exact C1|split; [exact C2|]]. intros w W. injection W as <-. reflexivity.
Qed.

Lemma init_inv d o : made d o -> is_init o = true -> exists eta mu L, n_nat o = Some (eta, A_nat d eta) /\ n_mu o = Some mu /\ n_Lambda o = Some L /\
  n_dim o = d /\ 0 < n_floor o /\ (forall j, (j < d)%nat -> 0 < L j) /\ eta_of d eta mu L /\ coherent o L.
Proof.
  intros M I. destruct (made_inv d o M) as (D & F & H). unfold is_init in I. destruct (n_nat o) as [[eta A]|]; [|discriminate]. destruct H as (mu & L & H1 & H2 & H3 & H4 & -> & H6).
  exists eta, mu, L. repeat (split; [first [reflexivity|assumption]|]). exact H6.
Qed.
Lemma get_chol_ok o L : coherent o L -> n_Lambda o = Some L -> is_init o = true ->
  exists v o', get_chol o = Ok (v, o') /\ (forall j, (j < n_dim o)%nat -> v j = sqrt (L j)) /\ n_mu o' = n_mu o /\ n_dim o' = n_dim o /\ n_Lambda o' = Some L /\ is_init o' = true /\ n_logL o' = n_logL o.
Proof.
  intros (C1 & C2 & C3) E I. unfold get_chol. rewrite I. cbn [assert bind]. destruct (n_chol o) as [v|] eqn:Q; [exists v, o; repeat (split; [first [reflexivity|assumption|apply (C2 v); reflexivity]|]); reflexivity|].
  rewrite E. cbn [bind]. eexists _, _. split; [reflexivity|]. split; [intros; reflexivity|]. simpl. unfold is_init in *. simpl. auto.
Qed.
Lemma get_logL_ok o L : (forall v, n_logL o = Some v -> v = sumn (n_dim o) (fun j => ln (L j))) -> n_Lambda o = Some L -> is_init o = true ->
  exists o', get_logL o = Ok (sumn (n_dim o) (fun j => ln (L j)), o') /\ n_dim o' = n_dim o.
Proof.
  intros C1 E I. unfold get_logL. rewrite I. cbn [assert bind]. destruct (n_logL o) as [v|] eqn:Q; [rewrite (C1 v eq_refl); eauto|]. rewrite E. eexists. split; reflexivity.
Qed.
Lemma get_sigma_ok o L : coherent o L -> n_Lambda o = Some L -> is_init o = true -> exists v o', get_sigma o = Ok (v, o') /\ (forall j, (j < n_dim o)%nat -> v j = 1 / L j).
Proof.
  intros (C1 & C2 & C3) E I. unfold get_sigma. rewrite I. cbn [assert bind]. destruct (n_sigma o) as [v|] eqn:Q; [exists v, o; split; [reflexivity|exact (C3 v eq_refl)]|]. rewrite E. eexists _, _. split; [reflexivity|]. intros; reflexivity.
Qed.

(** ** Theorems *)
(** The natural and the standard parameters are two forms of one another, with the same normaliser. *)
Theorem C70_parameters d mu L : (forall j, (j < d)%nat -> 0 < L j) ->
  (forall j, (j < d)%nat -> fst (compute_std d (compute_eta d mu L)) j = mu j /\ snd (compute_std d (compute_eta d mu L)) j = L j) /\
  A_nat d (compute_eta d mu L) = A_std d mu L.
Proof.
  intros P. split; [|apply A_eq; exact P]. intros j J. unfold compute_std, compute_eta. simpl. destruct (Nat.ltb_spec j d); [|lia]. destruct (Nat.ltb_spec (d + j) d); [lia|]. replace (d + j - d)%nat with j by lia.
  specialize (P j J). split; [field; lra|lra].
Qed.
(** After any history, both ways to compute the log-density give the log-density of independent Normal variables with the mean and the
    precision of the object, and the cached log-determinant, square root and variances belong to the current precision. *)
Theorem C70_log_prob d o : made d o -> is_init o = true -> exists mu L, n_mu o = Some mu /\ n_Lambda o = Some L /\ (forall j, (j < d)%nat -> 0 < L j) /\
  (forall x, log_prob_nat o x = Ok (log_lik d mu L x)) /\ (forall x, exists o', log_prob_std o x = Ok (log_lik d mu L x, o')) /\
  (exists v o', get_sigma o = Ok (v, o') /\ forall j, (j < d)%nat -> v j = 1 / L j).
Proof.
  intros M I. destruct (init_inv d o M I) as (eta & mu & L & H1 & H2 & H3 & D & F & P & E & C). exists mu, L. split; [exact H2|]. split; [exact H3|]. split; [exact P|]. split; [|split].
  - intros x. unfold log_prob_nat. rewrite H1, D. f_equal. rewrite <- (Rmult_1_l (A_nat d eta)), (nat_form d mu L eta _ 1 (suff d x) P E eq_refl), log_lik_form by exact P.
    apply sumn_ext. intros j J. unfold suff. destruct (Nat.ltb_spec j d); [|lia]. destruct (Nat.ltb_spec (d + j) d); [lia|]. replace (d + j - d)%nat with j by lia. lra.
  - intros x. unfold log_prob_std. rewrite I. cbn [assert bind]. destruct (get_chol_ok o L C H3 I) as (v & o1 & G1 & G2 & G3 & G4 & G5 & G6 & G7). rewrite G1. cbn [bind]. rewrite G3, H2.
    destruct (get_logL_ok o1 L) as (o2 & Q & QD); [destruct C as (C1 & _); rewrite G7, G4; exact C1|exact G5|exact G6|]. rewrite Q. cbn [bind]. exists o2. do 2 f_equal. rewrite QD, G4, D in *. rewrite log_lik_form by exact P.
    rewrite (sumn_ext d (fun j => (x j - mu j) * v j * ((x j - mu j) * v j)) (fun j => L j * (x j * x j - 2 * mu j * x j + mu j * mu j))).
    + replace (1 / 2 * INR d * ln (2 * PI)) with (sumn d (fun _ => 1 / 2 * ln (2 * PI))) by (rewrite sumn_const; ring).
      rewrite <- !sumn_mul. change (sumn d (fun j => 1 / 2 * ln (L j)) - sumn d (fun _ => 1 / 2 * ln (2 * PI)) - sumn d (fun j => 1 / 2 * (L j * (x j * x j - 2 * mu j * x j + mu j * mu j))) = sumn d (fun j => 1/2 * ln (L j) - 1/2 * ln (2 * PI) - 1/2 * (L j * (x j * x j - 2 * mu j * x j + mu j * mu j)))).
      rewrite <- !sumn_sub. reflexivity.
    + intros j J. rewrite (G2 j J). pose proof (sqrt_sqrt (L j) (Rlt_le _ _ (P j J))) as S. transitivity ((sqrt (L j) * sqrt (L j)) * ((x j - mu j) * (x j - mu j))); [ring|rewrite S; ring].
  - destruct (get_sigma_ok o L C H3 I) as (v & o' & G1 & G2). exists v, o'. split; [exact G1|]. rewrite D in G2. exact G2.
Qed.

(** *** Statistics *)
Lemma total_add {X} (x : list X) w f g : total x w (fun r => f r + g r) = total x w f + total x w g.
Proof. unfold total. rewrite <- Rsum_map_add. f_equal. apply map_ext. intros. ring. Qed.
Lemma total_mul {X} (x : list X) w c f : total x w (fun r => c * f r) = c * total x w f.
Proof. unfold total. rewrite <- Rsum_map_mul. f_equal. apply map_ext. intros. ring. Qed.
Lemma total_ext {X} (x : list X) w f g : (forall r, In r x -> f r = g r) -> total x w f = total x w g.
Proof. intros H. unfold total. apply Rsum_ext. intros [r v] I. simpl. apply in_combine_l in I. rewrite (H r I). reflexivity. Qed.
Lemma total_sumn {X} (x : list X) w n (f : nat -> X -> R) : total x w (fun r => sumn n (fun j => f j r)) = sumn n (fun j => total x w (f j)).
Proof.
  unfold sumn. generalize (seq 0 n) as l. induction l as [|j l IH]; simpl.
  - unfold total. rewrite (Rsum_ext _ (fun _ => 0)) by (intros; ring). rewrite Rsum_const. ring.
  - rewrite total_add, IH. reflexivity.
Qed.
Lemma slice_nil {A} a b : slice a b ([] : list A) = [].
Proof. unfold slice. rewrite skipn_nil, firstn_nil. reflexivity. Qed.
Lemma accum_x_ok d x w : fits x w -> exists u, accum_x d x w = Ok (total x w (fun _ => 1), u) /\ forall j, u j = total x w (fun r => suff d r j).
Proof.
  intros F. unfold accum_x, accum_1. destruct w as [w|]; simpl in F.
  - assert (E : Rsum w = total x (Some w) (fun _ => 1)).
    { unfold total, weights. rewrite (Rsum_ext (fun rv : (nat -> R) * R => snd rv * 1) snd) by (intros; ring). f_equal. clear - F. revert w F. induction x as [|r x IH]; intros [|v w] F; try discriminate F; [reflexivity|]. simpl. f_equal. apply IH. injection F as F. exact F. }
    rewrite map_length, F, Nat.eqb_refl, E. cbn [bind]. eexists. split; [reflexivity|].
    intros j. cbv beta. unfold total, weights. f_equal. clear - F. revert w F. induction x as [|r x IH]; intros [|v w] F; try discriminate F; [reflexivity|]. simpl. f_equal; [ring|]. apply IH. injection F as F. exact F.
  - assert (E : INR (List.length x) = total x None (fun _ => 1)). { unfold total, weights. clear. induction x as [|r x IH]; [reflexivity|]. cbn [map combine Rsum fold_right fst snd]. cbn [List.length]. rewrite S_INR, IH. unfold Rsum. ring. }
    cbn [bind]. rewrite map_length, E. eexists. split; [reflexivity|].
    intros j. cbv beta. unfold total, weights. f_equal. clear. induction x as [|r x IH]; [reflexivity|]. simpl. f_equal; [ring|exact IH].
Qed.
Lemma total_app {X} (x y : list X) (w v : list R) f : List.length w = List.length x -> total (x ++ y) (Some (w ++ v)) f = total x (Some w) f + total y (Some v) f.
Proof. intros L. unfold total, weights. rewrite <- Rsum_app, <- map_app. do 2 f_equal. clear - L. revert w L. induction x as [|a x IH]; intros [|b w] L; try discriminate L; [reflexivity|]. simpl. f_equal. apply IH. injection L as L. exact L. Qed.
Lemma total_none {X} (x : list X) f : total x None f = total x (Some (map (fun _ => 1) x)) f.
Proof. reflexivity. Qed.
Definition wslice a b (w : option (list R)) := option_map (slice a b) w.
Lemma total_slice_add {X} (x : list X) w f a b : fits x w -> (a <= b)%nat -> total (firstn b x) (option_map (firstn b) w) f = total (firstn a x) (option_map (firstn a) w) f + total (slice a b x) (wslice a b w) f.
Proof.
  intros F L. assert (S : forall A (l : list A), firstn b l = firstn a l ++ slice a b l).
  { intros A l. unfold slice. rewrite <- (firstn_skipn a (firstn b l)) at 1. rewrite firstn_firstn, Nat.min_l by lia. f_equal. rewrite skipn_firstn_comm. reflexivity. }
  destruct w as [w|]; simpl in *.
  - rewrite (S _ x), (S _ w). apply total_app. rewrite !firstn_length. lia.
  - rewrite (total_none (firstn b x)), (total_none (firstn a x)), (total_none (slice a b x)), (S _ x), map_app. apply total_app. apply map_length.
Qed.
Lemma fits_slice {X} (x : list X) w a b : fits x w -> fits (slice a b x) (wslice a b w).
Proof. destruct w as [w|]; simpl; [|trivial]. intros F. unfold slice. rewrite !firstn_length, !skipn_length. lia. Qed.
Lemma accum_n_ok d x w b : fits x w -> x <> [] -> (0 < b)%Z -> exists N u, accum_n d x w b = Ok (N, u) /\ N = total x w (fun _ => 1) /\ forall j, u j = total x w (fun r => suff d r j).
Proof.
  intros F NE B. unfold accum_n. destruct (Z.eqb_spec b 0); [lia|]. destruct (Z.ltb_spec b 0); [lia|]. set (k := Z.to_nat b). assert (K : (0 < k)%nat) by lia. clearbody k.
  set (step := fun acc i1 => _).
  set (m := ((List.length x + k - 1) / k)%nat). unfold range_step. fold m.
  assert (G : forall q, exists r, fold_left step (map (fun i => (i * k)%nat) (seq 0 q)) (Ok None) = Ok r /\
    match r with None => q = 0%nat | Some (N, u) => (0 < q)%nat /\ N = total (firstn (q * k) x) (option_map (firstn (q * k)) w) (fun _ => 1) /\ forall j, u j = total (firstn (q * k) x) (option_map (firstn (q * k)) w) (fun r => suff d r j) end).
  { induction q as [|q (r & E & R)]; [exists None; split; reflexivity|]. rewrite seq_S, map_app, fold_left_app, E. cbn [map fold_left Nat.add]. unfold step. cbn [bind].
    set (i2 := Nat.min (q * k + k) (List.length x)).
    assert (FI : forall A (l : list A), List.length l = List.length x -> slice (q * k) i2 l = slice (q * k) (S q * k) l).
    { intros A l L. unfold slice, i2. destruct (Nat.le_gt_cases (q * k + k) (List.length x)); [do 2 f_equal; lia|]. rewrite !firstn_all2; [reflexivity| |]; rewrite skipn_length; lia. }
    rewrite (FI _ x eq_refl). assert (FW : option_map (slice (q * k) i2) w = wslice (q * k) (S q * k) w). { destruct w as [w|]; [|reflexivity]. unfold wslice. simpl option_map. f_equal. apply FI. exact F. }
    rewrite FW. destruct (accum_x_ok d (slice (q * k) (S q * k) x) (wslice (q * k) (S q * k) w)) as (u & A1 & A2); [apply fits_slice; exact F|]. rewrite A1. cbn [bind].
    pose proof (fun f => total_slice_add x w f (q * k) (S q * k) F ltac:(lia)) as TS. destruct r as [[N0 u0]|].
    - destruct R as (R1 & R2 & R3). eexists. split; [reflexivity|]. split; [lia|]. split; [rewrite TS, R2; reflexivity|]. intros j. cbv beta. rewrite TS, A2, R3. reflexivity.
    - subst q. eexists. split; [reflexivity|]. split; [lia|]. assert (Z0 : forall f, total (firstn (0 * k) x) (option_map (firstn (0 * k)) w) f = 0) by reflexivity. split; [rewrite TS, Z0; ring|]. intros j. rewrite TS, Z0, A2. ring. }
  destruct (G m) as (r & E & R). rewrite E. cbn [bind].
  assert (MK : (List.length x <= m * k)%nat). { unfold m. pose proof (Nat.div_mod (List.length x + k - 1) k ltac:(lia)) as DM. pose proof (Nat.mod_upper_bound (List.length x + k - 1) k ltac:(lia)). nia. }
  assert (MP : m <> 0%nat). { destruct x; [congruence|]. simpl in MK. destruct m; simpl in *; lia. }
  destruct r as [[N u]|]; [|contradiction]. destruct R as (_ & R2 & R3). rewrite !firstn_all2 in R2 by exact MK. exists N, u. split; [reflexivity|].
  assert (W : option_map (firstn (m * k)) w = w) by (destruct w as [w|]; [simpl; f_equal; apply firstn_all2; simpl in F; lia|reflexivity]). rewrite W in *. split; [exact R2|]. intros j. rewrite R3, firstn_all2 by exact MK. reflexivity.
Qed.
(** The statistics are the weighted counts, sums and sums of squares of the data, whatever the batch size. *)
Theorem C70_statistics d x w b : fits x w -> x <> [] -> good_batch b -> exists N u, estep d x w b = Ok (N, u) /\
  N = total x w (fun _ => 1) /\ (forall j, (j < d)%nat -> u j = total x w (fun r => r j) /\ u (d + j)%nat = total x w (fun r => r j * r j)).
Proof.
  intros F NE B. assert (H : exists N u, estep d x w b = Ok (N, u) /\ N = total x w (fun _ => 1) /\ forall j, u j = total x w (fun r => suff d r j)).
  { destruct b as [b|]; [apply accum_n_ok; assumption|]. simpl. destruct (accum_x_ok d x w F) as (u & E1 & E2). exists (total x w (fun _ => 1)), u. auto. }
  destruct H as (N & u & E & EN & EU). exists N, u. split; [exact E|]. split; [exact EN|]. intros j J. rewrite !EU. unfold suff. split; apply total_ext; intros r _.
  - destruct (Nat.ltb_spec j d); [reflexivity|lia].
  - destruct (Nat.ltb_spec (d + j) d); [lia|]. replace (d + j - d)%nat with j by lia. reflexivity.
Qed.
(** [elbo] is the weighted sum of the log-densities. *)
Lemma elbo_stats_ok d o eta mu L x w N u : n_nat o = Some (eta, A_nat d eta) -> n_dim o = d -> (forall j, (j < d)%nat -> 0 < L j) -> eta_of d eta mu L ->
  N = total x w (fun _ => 1) -> (forall j, (j < d)%nat -> u j = total x w (fun r => r j) /\ u (d + j)%nat = total x w (fun r => r j * r j)) ->
  elbo_stats o N u = Ok (total x w (log_lik d mu L)).
Proof.
  intros H1 D P E EN EU. unfold elbo_stats. rewrite H1, D. f_equal. rewrite (nat_form d mu L eta _ N u P E eq_refl).
  rewrite (total_ext x w _ (fun r => sumn d (fun j => 1 / 2 * ln (L j) - 1 / 2 * ln (2 * PI) - 1 / 2 * (L j * (r j * r j - 2 * mu j * r j + mu j * mu j))))) by (intros; apply log_lik_form; exact P).
  rewrite total_sumn. apply sumn_ext. intros j J. destruct (EU j J) as [E1 E2]. rewrite E1, E2, EN.
  rewrite (total_ext x w (fun r => 1 / 2 * ln (L j) - 1 / 2 * ln (2 * PI) - 1 / 2 * (L j * (r j * r j - 2 * mu j * r j + mu j * mu j)))
     (fun r => (1 / 2 * ln (L j) - 1 / 2 * ln (2 * PI) - 1/2 * (L j * (mu j * mu j))) * 1 + (- (1/2) * L j * (r j * r j) + L j * mu j * r j))) by (intros; lra).
  rewrite total_add, !total_mul, total_add, !total_mul. field.
Qed.
Theorem C70_elbo d o x w b : made d o -> is_init o = true -> fits x w -> x <> [] -> good_batch b ->
  exists mu L, n_mu o = Some mu /\ n_Lambda o = Some L /\ elbo o x w b = Ok (total x w (log_lik d mu L)).
Proof.
  intros M I F NE B. destruct (init_inv d o M I) as (eta & mu & L & H1 & H2 & H3 & D & FL & P & E & C). exists mu, L. split; [exact H2|]. split; [exact H3|]. unfold elbo. rewrite I. cbn [assert bind].
  destruct (C70_statistics d x w b F NE B) as (N & u & S1 & S2 & S3). rewrite D, S1. cbn [bind]. apply (elbo_stats_ok d o eta mu L x w); assumption.
Qed.
(** *** Maximum likelihood *)
Lemma ln_le_sub1 t : 0 < t -> ln t <= t - 1.
Proof. intros T. pose proof (exp_ineq1_le (ln t)) as E. rewrite exp_ln in E by exact T. lra. Qed.
(** the one-dimensional problem *)
Lemma ml_1d fl v l' t : 0 < fl -> 0 < l' <= 1 / fl -> 0 <= t -> ln l' - l' * (v + t) <= ln (1 / floored fl v) - 1 / floored fl v * v.
Proof.
  intros F L T. set (s := floored fl v). assert (S : fl <= s /\ v <= s) by apply floored_ge. assert (SP : 0 < s) by lra.
  assert (E1 : ln (1 / s) = - ln s). { unfold Rdiv. rewrite Rmult_1_l. apply ln_Rinv. exact SP. }
  assert (E2 : ln (l' * s) = ln l' + ln s) by (apply ln_mult; lra).
  pose proof (ln_le_sub1 (l' * s) ltac:(nra)) as Q. rewrite E2 in Q. rewrite E1. assert (LT : 0 <= l' * t) by nra.
  assert (K : l' * s - 1 <= l' * v - 1 / s * v); [|nra].
  assert (H : (l' - 1 / s) * s = l' * s - 1) by (field; lra). rewrite <- H. replace (l' * v - 1 / s * v) with ((l' - 1 / s) * v) by ring.
  unfold s, floored in *. destruct (Rlt_dec v fl); nra.
Qed.
Lemma total_nonneg {X} (x : list X) w f : fits x w -> pos_weights w -> (forall r, In r x -> 0 <= f r) -> 0 <= total x w f.
Proof.
  intros F W P. apply Rsum_nonneg. intros y Y. apply in_map_iff in Y. destruct Y as ([r v] & <- & I). simpl.
  assert (0 <= v). { destruct w as [w|]; simpl in *; [rewrite Forall_forall in W; apply W; exact (in_combine_r _ _ _ _ I)|]. apply in_combine_r in I. apply in_map_iff in I. destruct I as (? & <- & _). lra. }
  apply in_combine_l in I. specialize (P r I). nra.
Qed.
(** weighted mean and variance of coordinate j *)
Definition wmean (x : list (nat -> R)) (w : option (list R)) (j : nat) : R := total x w (fun r => r j) / total x w (fun _ => 1).
Definition wvar (x : list (nat -> R)) (w : option (list R)) (j : nat) : R := total x w (fun r => (r j - wmean x w j)²) / total x w (fun _ => 1).
Lemma var_form x w j : 0 < total x w (fun _ => 1) -> wvar x w j = total x w (fun r => r j * r j) / total x w (fun _ => 1) - wmean x w j * wmean x w j.
Proof.
  intros P. unfold wvar. set (m := wmean x w j).
  assert (M : total x w (fun r => r j) = m * total x w (fun _ => 1)) by (unfold m, wmean; field; lra).
  rewrite (total_ext x w (fun r => (r j - m)²) (fun r => r j * r j + (- 2 * m * r j + m * m * 1))) by (intros; unfold Rsqr; ring). rewrite total_add, total_add, !total_mul, M. field. lra.
Qed.
Lemma dev_form (x : list (nat -> R)) w j c : 0 < total x w (fun _ => 1) -> total x w (fun r => (r j - c)²) = total x w (fun _ => 1) * (wvar x w j + (wmean x w j - c)²).
Proof.
  intros P. rewrite var_form by exact P. assert (M : total x w (fun r => r j) = wmean x w j * total x w (fun _ => 1)) by (unfold wmean; field; lra).
  rewrite (total_ext x w (fun r => (r j - c)²) (fun r => r j * r j + (- 2 * c * r j + c * c * 1))) by (intros; unfold Rsqr; ring). rewrite total_add, total_add, !total_mul, M. unfold Rsqr. field. lra.
Qed.
Lemma lik_form d mu L x w : (forall j, (j < d)%nat -> 0 < L j) -> 0 < total x w (fun _ => 1) ->
  total x w (log_lik d mu L) = total x w (fun _ => 1) * sumn d (fun j => 1/2 * (ln (L j) - L j * (wvar x w j + (wmean x w j - mu j)²)) - 1/2 * ln (2 * PI)).
Proof.
  intros P W. rewrite (total_ext x w _ (fun r => sumn d (fun j => (1 / 2 * ln (L j) - 1 / 2 * ln (2 * PI)) * 1 + - (1 / 2) * L j * (r j - mu j)²)))
    by (intros r _; rewrite log_lik_form by exact P; apply sumn_ext; intros; unfold Rsqr; lra).
  rewrite total_sumn, <- sumn_mul. apply sumn_ext. intros j J. rewrite total_add, !total_mul, dev_form by exact W. field.
Qed.
(** Training on weighted data gives the weighted mean and the floored weighted variance; the reported value is the log-likelihood under
    the new parameters, and no parameters with variances not below the floor have a larger one. *)
Theorem C70_fit d o x w b : made d o -> n_updmu o = true -> n_updL o = true -> fits x w -> pos_weights w -> x <> [] -> 0 < total x w (fun _ => 1) -> good_batch b ->
  exists o' mu L e, fit o x w b = Ok (o', e, e / total x w (fun _ => 1)) /\ made d o' /\ n_mu o' = Some mu /\ n_Lambda o' = Some L /\
    (forall j, (j < d)%nat -> mu j = wmean x w j /\ 1 / L j = Rmax (n_floor o) (wvar x w j)) /\
    e = total x w (log_lik d mu L) /\
    (forall mu' L', (forall j, (j < d)%nat -> 0 < L' j <= 1 / n_floor o) -> total x w (log_lik d mu' L') <= e).
Proof.
  intros M UM UL F W NE P B. destruct (made_inv d o M) as (D & FL & _). destruct (C70_statistics d x w b F NE B) as (N & u & S1 & S2 & S3).
  unfold fit. rewrite D, S1. cbn [bind]. assert (NP : 0 < N) by (rewrite S2; exact P).
  assert (MS : exists o', mstep o N u = Ok o' /\ n_mu o' = Some (fun j => u j / N) /\ n_Lambda o' = Some (fun j => 1 / floored (n_floor o) (u (d + j)%nat / N - (u j / N) * (u j / N)))).
  { unfold mstep. rewrite UM, UL, D. eexists. split; [reflexivity|]. split; reflexivity. }
  destruct MS as (o' & M1 & M2 & M3). rewrite M1. cbn [bind]. assert (MD : made d o') by (apply (made_mstep d o N u); assumption).
  assert (I : is_init o' = true) by (unfold mstep in M1; rewrite UM, UL in M1; injection M1 as <-; reflexivity).
  destruct (init_inv d o' MD I) as (eta & mu & L & H1 & H2 & H3 & D' & FL' & P' & E & C). rewrite H2 in M2. rewrite H3 in M3. injection M2 as ->. injection M3 as ->.
  rewrite (elbo_stats_ok d o' eta _ _ x w N u H1 D' P' E S2 S3). cbn [bind]. eexists o', _, _, _. split; [rewrite <- S2; reflexivity|]. split; [exact MD|]. split; [exact H2|]. split; [exact H3|].
  assert (V : forall j, (j < d)%nat -> u j / N = wmean x w j /\ u (d + j)%nat / N - (u j / N) * (u j / N) = wvar x w j).
  { intros j J. destruct (S3 j J) as [T1 T2]. rewrite var_form by exact P. unfold wmean. rewrite T1, T2, S2. split; reflexivity. }
  split; [|split; [reflexivity|]].
  - intros j J. destruct (V j J) as [V1 V2]. rewrite V2. split; [exact V1|]. unfold floored, Rmax. destruct (Rlt_dec (wvar x w j) (n_floor o)), (Rle_dec (n_floor o) (wvar x w j)); try lra; field; lra.
  - intros mu' L' PL. assert (PL0 : forall j, (j < d)%nat -> 0 < L' j) by (intros j J; apply PL; exact J). rewrite (lik_form d _ _ x w PL0 P), (lik_form d _ _ x w P' P).
    apply Rmult_le_compat_l; [lra|]. apply sumn_le. intros j J. destruct (V j J) as [V1 V2]. rewrite V1, <- V1, V2, V1.
    replace (wmean x w j - wmean x w j) with 0 by ring. rewrite Rsqr_0, Rplus_0_r.
    pose proof (ml_1d (n_floor o) (wvar x w j) (L' j) ((wmean x w j - mu' j)²) FL (PL j J) (Rle_0_sqr _)). lra.
Qed.
(** With a fixed precision the new mean is the best one. *)
Theorem C70_fit_mean d o x w b L : made d o -> n_updmu o = true -> n_updL o = false -> n_Lambda o = Some L -> fits x w -> x <> [] -> 0 < total x w (fun _ => 1) -> good_batch b ->
  exists o' mu e, fit o x w b = Ok (o', e, e / total x w (fun _ => 1)) /\ n_mu o' = Some mu /\ n_Lambda o' = Some L /\ (forall j, (j < d)%nat -> mu j = wmean x w j) /\
    e = total x w (log_lik d mu L) /\ (forall mu', total x w (log_lik d mu' L) <= e).
Proof.
  intros M UM UL HL F NE P B. destruct (made_inv d o M) as (D & FL & _). destruct (C70_statistics d x w b F NE B) as (N & u & S1 & S2 & S3).
  unfold fit. rewrite D, S1. cbn [bind]. assert (NP : 0 < N) by (rewrite S2; exact P).
  assert (MS : exists o', mstep o N u = Ok o' /\ n_mu o' = Some (fun j => u j / N) /\ n_Lambda o' = Some L /\ is_init o' = true).
  { unfold mstep. rewrite UM, UL, D, HL. eexists. split; [reflexivity|]. split; [reflexivity|]. split; reflexivity. }
  destruct MS as (o' & M1 & M2 & M3 & I). rewrite M1. cbn [bind]. assert (MD : made d o') by (apply (made_mstep d o N u); assumption).
  destruct (init_inv d o' MD I) as (eta & mu & L1 & H1 & H2 & H3 & D' & FL' & P' & E & C). rewrite H2 in M2. rewrite H3 in M3. injection M2 as ->. injection M3 as ->.
  rewrite (elbo_stats_ok d o' eta _ _ x w N u H1 D' P' E S2 S3). cbn [bind]. eexists o', _, _. split; [rewrite <- S2; reflexivity|]. split; [exact H2|]. split; [exact H3|].
  assert (V : forall j, (j < d)%nat -> u j / N = wmean x w j) by (intros j J; destruct (S3 j J) as [T1 T2]; unfold wmean; rewrite T1, S2; reflexivity).
  split; [exact V|]. split; [reflexivity|]. intros mu'. rewrite (lik_form d _ _ x w P' P), (lik_form d _ _ x w P' P). apply Rmult_le_compat_l; [lra|]. apply sumn_le. intros j J. rewrite (V j J).
  replace (wmean x w j - wmean x w j) with 0 by ring. rewrite Rsqr_0, Rplus_0_r. pose proof (Rle_0_sqr (wmean x w j - mu' j)). specialize (P' j J). nra.
Qed.
(** With a fixed mean the new variance is not the best one: it is computed as if the mean had been updated. *)
Theorem C70_fit_fixed_mean_refuted : exists (mu : nat -> R) o o' e x L', new 1 (Some mu) (Some (fun _ => 1)) None (1/10) false true = Ok o /\ made 1 o /\
  fit o x None None = Ok (o', e, e / total x None (fun _ => 1)) /\ x <> [] /\ n_mu o' = Some mu /\ 0 < L' <= 1 / (1/10) /\ e < total x None (log_lik 1 mu (fun _ => L')).
Proof.
  set (mu := fun _ : nat => 2). set (x := [fun _ : nat => 0]).
  assert (NW : exists o, new 1 (Some mu) (Some (fun _ => 1)) None (1/10) false true = Ok o /\ n_updmu o = false /\ n_updL o = true /\ n_floor o = 1/10 /\ n_mu o = Some mu /\ n_dim o = 1%nat).
  { unfold new. assert (Q : all_pos 1 (fun _ => 1) = true) by (apply all_pos_ok; intros; lra). rewrite Q. eexists. split; [reflexivity|]. repeat split; reflexivity. }
  destruct NW as (o & NW & UM & UL & FL & MU & D). assert (M : made 1 o) by (apply (made_std 1 mu (fun _ => 1) None (1/10) false true); [lra|exact NW]).
  destruct (C70_statistics 1 x None None I ltac:(discriminate) I) as (N & u & S1 & S2 & S3).
  assert (T1 : total x None (fun _ => 1) = 1) by (unfold total, x; simpl; ring).
  assert (MS : exists o', mstep o N u = Ok o' /\ n_mu o' = Some mu /\ n_Lambda o' = Some (fun j => 1 / floored (1/10) (u (1 + j)%nat / N - mu j * mu j)) /\ is_init o' = true).
  { unfold mstep. rewrite UM, UL, D, MU, FL. eexists. split; [reflexivity|]. split; [reflexivity|]. split; reflexivity. }
  destruct MS as (o' & M1 & M2 & M3 & II). assert (MD : made 1 o') by (apply (made_mstep 1 o N u); [exact M|rewrite S2, T1; lra|exact M1]).
  destruct (init_inv 1 o' MD II) as (eta & mu0 & L0 & H1 & H2 & H3 & D' & FL' & P' & E & C). rewrite H2 in M2. rewrite H3 in M3. injection M2 as ->. injection M3 as ->.
  exists mu, o, o'. eexists _, x, 1. split; [exact NW|]. split; [exact M|].
  split; [unfold fit; rewrite D, S1; cbn [bind]; rewrite M1; cbn [bind]; rewrite (elbo_stats_ok 1 o' eta _ _ x None N u H1 D' P' E S2 S3); cbn [bind]; rewrite <- S2; reflexivity|].
  split; [discriminate|]. split; [exact H2|]. split; [lra|]. rewrite (lik_form 1 _ _ x None P') by (rewrite T1; lra). rewrite (lik_form 1 mu (fun _ => 1) x None) by (try rewrite T1; intros; lra). rewrite T1, !Rmult_1_l.
  assert (WM : wmean x None 0 = 0) by (unfold wmean; rewrite T1; unfold total, x; simpl; field). assert (WV : wvar x None 0 = 0) by (unfold wvar; rewrite T1, WM; unfold total, x, Rsqr; simpl; field).
  destruct (S3 0%nat ltac:(lia)) as [_ U2]. assert (U : u (1 + 0)%nat = 0) by (rewrite U2; unfold total, x; simpl; ring).
  assert (FF : 1 / floored (1/10) (u (1 + 0)%nat / N - mu 0%nat * mu 0%nat) = 10). { rewrite U, S2, T1. unfold floored, mu. destruct (Rlt_dec (0 / 1 - 2 * 2) (1 / 10)); [field|lra]. }
  unfold sumn. cbn [seq map Rsum fold_right]. change (u 1%nat) with (u (1 + 0)%nat). rewrite FF, WM, WV. unfold mu, Rsqr. rewrite ln_1. pose proof (ln_le_sub1 10 ltac:(lra)). lra.
Qed.
(** Normalised statistics are the sums of the standardised data and of their squares. *)
Theorem C70_norm_stats d o x w b : made d o -> is_init o = true -> fits x w -> x <> [] -> good_batch b -> exists mu L N u F S,
  n_mu o = Some mu /\ n_Lambda o = Some L /\ estep d x w b = Ok (N, u) /\ norm_stats o N u = Ok (F, S) /\
  forall j, (j < d)%nat -> F j = total x w (fun r => sqrt (L j) * (r j - mu j)) /\ S j = total x w (fun r => (sqrt (L j) * (r j - mu j))²).
Proof.
  intros M I F NE B. destruct (init_inv d o M I) as (eta & mu & L & H1 & H2 & H3 & D & FL & P & E & C). destruct (C70_statistics d x w b F NE B) as (N & u & S1 & S2 & S3).
  destruct (get_chol_ok o L C H3 I) as (v & o1 & G1 & G2 & _). unfold norm_stats. rewrite I, H2, H3, G1. cbn [assert bind]. exists mu, L, N, u. eexists _, _. split; [reflexivity|]. split; [reflexivity|]. split; [exact S1|]. split; [reflexivity|].
  intros j J. cbv beta. destruct (S3 j J) as [T1 T2]. rewrite D in *. rewrite (G2 j J), T1, T2, S2. split.
  - rewrite (total_ext x w (fun r => sqrt (L j) * (r j - mu j)) (fun r => sqrt (L j) * r j + - (sqrt (L j) * mu j) * 1)) by (intros; ring). rewrite total_add, !total_mul. ring.
  - pose proof (sqrt_sqrt (L j) (Rlt_le _ _ (P j J))) as Q. rewrite (total_ext x w (fun r => (sqrt (L j) * (r j - mu j))²) (fun r => L j * (r j * r j) + (- 2 * mu j * L j * r j + L j * mu j * mu j * 1))).
    + rewrite total_add, total_add, !total_mul. ring.
    + intros r _. unfold Rsqr. transitivity ((sqrt (L j) * sqrt (L j)) * ((r j - mu j) * (r j - mu j))); [ring|rewrite Q; ring].
Qed.
(** Passing precomputed statistics with weights scales the caller's array: a second call with the same array counts the weights twice. *)
Theorem C70_statistics_in_place_refuted : exists (u : list (nat -> R)) w N a u' N' a' u'', accum_1 1 u (Some w) = Ok (N, a, u') /\ accum_1 1 u' (Some w) = Ok (N', a', u'') /\ a 0%nat = 2 /\ a' 0%nat = 4.
Proof. exists [fun _ => 1], [2]. eexists _, _, _, _, _, _. split; [reflexivity|]. split; [reflexivity|]. simpl. split; ring. Qed.
(** Empty data: with a batch size the accumulators do not exist. *)
Theorem C70_empty_refuted d w b : (0 < b)%Z -> estep d [] w (Some b) = Err UnboundLocalError.
Proof.
  intros B. unfold estep, accum_n. destruct (Z.eqb_spec b 0); [lia|]. destruct (Z.ltb_spec b 0); [lia|]. unfold range_step. cbn [List.length].
  assert (Z : ((0 + Z.to_nat b - 1) / Z.to_nat b)%nat = 0%nat) by (apply Nat.div_small; lia). rewrite Z. reflexivity.
Qed.
Theorem C70_add_suff_stats_refuted {S} (l : list S) : exists e, add_suff_stats l = Err e.
Proof. destruct l as [|a [|b l]]; eexists; reflexivity. Qed.
Theorem C70_load_refuted : load_params = Err NameError.
Proof. reflexivity. Qed.
Example C70_witness : exists o, new 1 (Some (fun _ => 0)) (Some (fun _ => 1)) None (1/10) true true = Ok o /\ made 1 o /\ is_init o = true /\ n_updmu o = true /\ n_updL o = true /\
  fits [fun _ : nat => 1; fun _ => 3] (Some [1; 2]) /\ pos_weights (Some [1; 2]) /\ 0 < total [fun _ : nat => 1; fun _ => 3] (Some [1; 2]) (fun _ => 1) /\ good_batch (Some 1%Z).
Proof.
  assert (Q : all_pos 1 (fun _ => 1) = true) by (apply all_pos_ok; intros; lra). unfold new. rewrite Q. eexists. split; [reflexivity|].
  split; [eapply (made_std 1 (fun _ => 0) (fun _ => 1) None (1/10) true true); [lra|unfold new; rewrite Q; reflexivity]|]. repeat split; try reflexivity. - repeat constructor; lra. - unfold total; simpl; lra.
Qed.
Print Assumptions C70_log_prob. Print Assumptions C70_fit.
