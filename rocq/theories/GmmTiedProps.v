(** Mixtures of diagonal Normal distributions with a shared precision (C107). *)
From Coq Require Import Reals Lra Lia Psatz.
From Verif Require Import Base BaseFacts MathFns MathFnsProps ScoreNorm ScoreNormProps NormalDiag NormalDiagProps GmmDiag GmmDiagProps GmmTied.
Open Scope list_scope. Open Scope R_scope.

(** ** Specification (mix_dens, comp_dens, resp, total: C71) *)
(** the weights an object computes with: those of the first time they were needed *)
Definition t_used (t : tgmm) (k : nat) : R := match t_logpi t with Some v => exp (v k) | None => t_pi t k + / 10 ^ 15 end.
Definition t_dens (t : tgmm) (x : nat -> R) : R := mix_dens (t_K t) (t_d t) (t_used t) (t_mu t) (fun _ => t_L t) x.
Definition t_resp (t : tgmm) (k : nat) (x : nat -> R) : R := resp (t_K t) (t_d t) (t_used t) (t_mu t) (fun _ => t_L t) k x.
(** posterior-weighted count, mean and variance of a component on the data *)
Definition t_count (t : tgmm) x w k : R := total x w (t_resp t k).
Definition t_cmean (t : tgmm) x w k j : R := total x w (fun r => t_resp t k r * r j) / t_count t x w k.
Definition t_cvar (t : tgmm) x w k j : R := total x w (fun r => t_resp t k r * (r j - t_cmean t x w k j)²) / t_count t x w k.
(** the floor of the variances: a fraction of the average over the components of more than min_N *)
Definition t_vfloor (t : tgmm) x w j : R :=
  t_floor t * average (map (fun k => t_cvar t x w k j) (filter (fun k => if Rlt_dec (t_minN t) (t_count t x w k) then true else false) (seq 0 (t_K t)))).
(** average over the components of the floored variances, in proportion to their counts *)
Definition t_pooled (t : tgmm) x w j : R := sumn (t_K t) (fun k => t_count t x w k * Rmax (t_cvar t x w k j) (t_vfloor t x w j)) / total x w (fun _ => 1).
(** objects of K components and d coordinates made by the constructors with weights >= 0, by initialize without data, by reading the
    cached properties, and by M-steps with positive counts after which the variances are positive *)
Inductive t_made (K d : nat) : tgmm -> Prop :=
| tm_new pi mu L fl mn up um ul t : (forall k, (k < K)%nat -> 0 <= pi k) -> t_new K d pi mu L fl mn up um ul = Ok t -> t_made K d t
| tm_eta pi mu L fl mn up um ul t : (forall k, (k < K)%nat -> 0 <= pi k) -> (0 < K)%nat -> (forall j, (j < d)%nat -> 0 < L j) -> t = t_new_eta K d pi (t_compute_eta d mu L) fl mn up um ul -> t_made K d t
| tm_logpi t : t_made K d t -> t_made K d (snd (get_tlogpi t))
| tm_logL t : t_made K d t -> t_made K d (snd (get_tlogL t))
| tm_chol t : t_made K d t -> t_made K d (snd (get_tchol t))
| tm_sigma t : t_made K d t -> t_made K d (snd (get_tsigma t))
| tm_mstep t N u t' : t_made K d t -> (forall k, (k < K)%nat -> 0 < N k) -> t_mstep t N u = Ok (Some t') -> (forall j, (j < d)%nat -> 0 < t_L t' j) -> t_made K d t'.

(** ** Proofs *)
Lemma view_used t k : used (view t) k = t_used t k. Proof. reflexivity. Qed.
Lemma view_logpi t : view (snd (get_tlogpi t)) = snd (get_logpi (view t)).
Proof. unfold get_tlogpi, get_logpi. destruct t as [K d pi mu L eta A lp ll ch sg fl mn up um ul]. unfold view. simpl. destruct lp; reflexivity. Qed.
Lemma view_with t g : g = snd (get_logpi (view t)) -> with_logpi t (g_logpi g) = snd (get_tlogpi t).
Proof. intros ->. unfold get_tlogpi. destruct (get_logpi (view t)) as [v g]. reflexivity. Qed.
Lemma t_nat_eq d mu L : t_nat d mu L = g_nat d mu (fun _ => L). Proof. reflexivity. Qed.
Definition sigma_ok (d : nat) (t : tgmm) : Prop := forall v, t_sigma t = Some v -> forall j, (j < d)%nat -> v j = 1 / t_L t j.
Definition TInv (K d : nat) (t : tgmm) : Prop := GInv K d (view t) /\ sigma_ok d t.
Lemma tmstep_facts t N u t' : t_mstep t N u = Ok (Some t') ->
  let mu := if t_updmu t then fun k j => u k j / N k else t_mu t in
  let S0 := fun k j => u k (t_d t + j)%nat / N k - mu k j * mu k j in
  let sp := fun j => sumn (t_K t) (fun k => N k * Rmax (S0 k j) (s_floor (t_K t) (t_floor t) (t_minN t) N S0 j)) / sumn (t_K t) N in
  t_K t' = t_K t /\ t_d t' = t_d t /\ t_mu t' = mu /\ t_L t' = (if t_updL t then fun j => 1 / sp j else t_L t) /\
  t_eta t' = t_compute_eta (t_d t) (t_mu t') (t_L t') /\ t_A t' = (fun k => A_nat (t_d t) (t_eta t' k)) /\ t_logpi t' = t_logpi t /\
  t_logL t' = (if t_updL t then None else t_logL t) /\ t_chol t' = (if t_updL t then None else t_chol t) /\ t_pi t' = (if t_updpi t then fun k => N k / sumn (t_K t) N else t_pi t) /\
  t_sigma t' = (if t_updL t then Some sp else t_sigma t) /\
  t_floor t' = t_floor t /\ t_minN t' = t_minN t /\ t_updpi t' = t_updpi t /\ t_updmu t' = t_updmu t /\ t_updL t' = t_updL t /\
  (t_updL t = true -> forall j, (j < t_d t)%nat -> sp j <> 0).
Proof.
  unfold t_mstep. destruct (_ && existsb _ (seq 0 (t_K t))); [discriminate|]. destruct (t_updL t && negb _); [discriminate|]. cbv zeta.
  destruct (t_updL t && existsb _ (seq 0 (t_d t))) eqn:Z; [discriminate|]. cbn [t_nat]. intros H.
  assert (SP : t_updL t = true -> forall j, (j < t_d t)%nat -> sumn (t_K t) (fun k => N k * Rmax (u k (t_d t + j)%nat / N k - (if t_updmu t then fun k j => u k j / N k else t_mu t) k j * (if t_updmu t then fun k j => u k j / N k else t_mu t) k j)
     (s_floor (t_K t) (t_floor t) (t_minN t) N (fun k j => u k (t_d t + j)%nat / N k - (if t_updmu t then fun k j => u k j / N k else t_mu t) k j * (if t_updmu t then fun k j => u k j / N k else t_mu t) k j) j)) / sumn (t_K t) N <> 0).
  { intros UL j J E. rewrite UL in Z. cbn [andb] in Z. match type of Z with existsb ?p ?l = false => enough (existsb p l = true) by congruence end.
    apply existsb_exists. exists j. split; [apply in_seq; lia|]. destruct (Req_EM_T _ 0) as [|NE]; [reflexivity|]. exfalso. apply NE. exact E. }
  destruct (t_updpi t) eqn:UP.
  - match type of H with (if ?c then _ else _) = _ => destruct c; [discriminate|] end. injection H as <-. cbn [t_K t_d t_mu t_L t_eta t_A t_logpi t_logL t_chol t_pi t_sigma t_floor t_minN t_updpi t_updmu t_updL]. repeat (split; [reflexivity|]). exact SP.
  - injection H as <-. cbn [t_K t_d t_mu t_L t_eta t_A t_logpi t_logL t_chol t_pi t_sigma t_floor t_minN t_updpi t_updmu t_updL]. repeat (split; [reflexivity|]). exact SP.
Qed.
Lemma inv_inv s : s <> 0 -> s = 1 / (1 / s).
Proof. intros. field. assumption. Qed.
Lemma t_made_inv K d t : t_made K d t -> TInv K d t.
Proof.
  induction 1 as [pi mu L fl mn up um ul t P H|pi mu L fl mn up um ul t P HK PL ->|t M IH|t M IH|t M IH|t M IH|t N u t' M IH PN H PL].
  - unfold t_new in H. destruct (all_pos d L) eqn:AP; [|discriminate]. cbn [t_nat] in H. injection H as <-. pose proof (proj1 (all_pos_ok d L) AP) as Q. split; [|intros v V; discriminate]. split; [reflexivity|]. split; [reflexivity|]. split; [intros k j _; apply Q|].
    split; [intros k Hk; split; [intros j _; reflexivity|reflexivity]|]. split; [intros v V; discriminate|]. split; [intros v V; discriminate|]. intros k Hk. rewrite view_used. unfold t_used. simpl. pose proof pi_eps_pos. specialize (P k Hk). simpl in *. lra.
  - unfold t_new_eta. cbn [t_compute_std]. split; [|intros v V; discriminate].
    assert (E2 : forall k j, (j < d)%nat -> t_compute_eta d mu L k (d + j)%nat = - (1/2) * L j). { intros k j J. unfold t_compute_eta. destruct (Nat.ltb_spec (d + j) d); [lia|]. replace (d + j - d)%nat with j by lia. reflexivity. }
    assert (E1 : forall k j, (j < d)%nat -> t_compute_eta d mu L k j = L j * mu k j). { intros k j J. unfold t_compute_eta. destruct (Nat.ltb_spec j d); [reflexivity|lia]. }
    assert (LE : forall j, (j < d)%nat -> - (2) * t_compute_eta d mu L 0 (d + j)%nat = L j) by (intros j J; rewrite E2 by exact J; lra).
    split; [reflexivity|]. split; [reflexivity|]. split; [intros k j _ J; cbn [view g_L t_L]; rewrite LE by exact J; auto|].
    split; [|split; [intros v V; discriminate|split; [intros v V; discriminate|]]].
    + intros k Hk. split; [|reflexivity]. intros j J. cbn [view g_eta g_mu g_L t_eta t_mu t_L]. unfold compute_eta. destruct (Nat.ltb_spec j d) as [Hj|Hj].
      * rewrite LE, E1, E2 by exact Hj. specialize (PL j Hj). field. lra.
      * replace j with (d + (j - d))%nat at 1 by lia. rewrite E2, LE by lia. reflexivity.
    + intros k Hk. rewrite view_used. unfold t_used. simpl. pose proof pi_eps_pos. specialize (P k Hk). simpl in *. lra.
  - split; [rewrite view_logpi; apply ginv_logpi; exact (proj1 IH)|]. destruct IH as [_ IH]. unfold get_tlogpi. destruct (get_logpi (view t)). exact IH.
  - unfold get_tlogL. destruct (t_logL t) eqn:E; [exact IH|]. destruct IH as [(I1 & I2 & I3 & I4 & I5 & I6 & I7) IS]. split; [|exact IS]. repeat (split; [assumption|]). split; [|split; [exact I6|exact I7]].
    intros v V k Hk. injection V as <-. cbn [view g_d] in I2. rewrite I2. reflexivity.
  - unfold get_tchol. destruct (t_chol t) eqn:E; [exact IH|]. destruct IH as [(I1 & I2 & I3 & I4 & I5 & I6 & I7) IS]. split; [|exact IS]. repeat (split; [assumption|]). split; [|exact I7].
    intros v V k j Hk J. injection V as <-. reflexivity.
  - unfold get_tsigma. destruct (t_sigma t) eqn:E; [exact IH|]. destruct IH as [I IS]. split; [exact I|]. intros v V j J. injection V as <-. reflexivity.
  - destruct IH as [(I1 & I2 & I3 & I4 & I5 & I6 & I7) IS]. pose proof (tmstep_facts t N u t' H) as (F1 & F2 & F3 & F4 & F5 & F6 & F7 & F8 & F9 & F10 & F11 & _ & _ & _ & _ & _ & SP). cbn [view g_K g_d] in I1, I2. cbv zeta in SP.
    split.
    + split; [cbn [view g_K]; congruence|]. split; [cbn [view g_d]; congruence|]. split; [intros k j _; apply PL|].
      split; [intros k Hk; cbn [view g_eta g_mu g_L g_A]; rewrite F6, F5, I2; split; [intros j _; reflexivity|reflexivity]|].
      cbn [view g_logL g_chol g_L]. rewrite F4, F8, F9.
      assert (U : forall k, (k < K)%nat -> 0 < used (view t') k).
      { intros k Hk. specialize (I7 k Hk). rewrite view_used in *. unfold t_used in *. rewrite F7, F10. destruct (t_logpi t); [exact I7|]. destruct (t_updpi t); [|exact I7].
        pose proof pi_eps_pos. assert (0 < sumn (t_K t) N) by (rewrite I1; apply sumn_pos; [lia|exact PN]). assert (0 < N k / sumn (t_K t) N) by (apply Rdiv_lt_0_compat; auto). lra. }
      destruct (t_updL t); (split; [|split; [|exact U]]); try (intros v V; discriminate); [exact I5|exact I6].
    + unfold sigma_ok. rewrite F11, F4. destruct (t_updL t) eqn:UL; [|exact IS]. intros v V j J. injection V as <-. specialize (SP eq_refl j ltac:(rewrite I2; exact J)). apply inv_inv. exact SP.
Qed.
Lemma sumn_swap m n f : sumn m (fun i => sumn n (fun j => f i j)) = sumn n (fun j => sumn m (fun i => f i j)).
Proof.
  induction m as [|m IH]; [unfold sumn at 1; simpl; symmetry; rewrite (sumn_ext n _ (fun _ => 0)) by reflexivity; rewrite sumn_const; ring|].
  rewrite sumn_S, IH, <- sumn_add. apply sumn_ext. intros j _. rewrite sumn_S. reflexivity.
Qed.
Lemma used_of_inv K d t k : TInv K d t -> (k < K)%nat -> 0 < t_used t k.
Proof. intros [(_ & _ & _ & _ & _ & _ & I7) _] Hk. rewrite <- view_used. auto. Qed.
Lemma made_dims K d t : t_made K d t -> t_K t = K /\ t_d t = d /\ (forall j, (0 < K)%nat -> (j < d)%nat -> 0 < t_L t j).
Proof. intros M. destruct (t_made_inv K d t M) as [(I1 & I2 & I3 & _) _]. cbn [view g_K g_d g_L] in *. repeat split; try assumption. intros j HK J. exact (I3 0%nat j HK J). Qed.
Lemma tlogpi_facts t : let t' := snd (get_tlogpi t) in t_K t' = t_K t /\ t_d t' = t_d t /\ t_pi t' = t_pi t /\ t_mu t' = t_mu t /\ t_L t' = t_L t /\ t_eta t' = t_eta t /\ t_A t' = t_A t /\ t_logL t' = t_logL t /\ t_chol t' = t_chol t /\
  t_floor t' = t_floor t /\ t_minN t' = t_minN t /\ t_updpi t' = t_updpi t /\ t_updmu t' = t_updmu t /\ t_updL t' = t_updL t.
Proof. unfold get_tlogpi. destruct (get_logpi (view t)). repeat split. Qed.
Lemma tlogpi_some t : exists v, t_logpi (snd (get_tlogpi t)) = Some v.
Proof. unfold get_tlogpi, get_logpi. cbn [view g_logpi]. destruct (t_logpi t) eqn:E; eexists; cbn; [exact E|reflexivity]. Qed.
Lemma t_used_logpi t k : 0 < t_used t k -> t_used (snd (get_tlogpi t)) k = t_used t k.
Proof. intros P. rewrite <- !view_used, view_logpi. apply used_logpi. exact P. Qed.
(** ** Theorems *)
(** The constructor keeps the parameters it is given. *)
Theorem C107_new K d pi mu L fl mn up um ul : (forall j, (j < d)%nat -> 0 < L j) -> exists t, t_new K d pi mu L fl mn up um ul = Ok t /\
  t_K t = K /\ t_d t = d /\ (forall k, t_used t k = pi k + / 10 ^ 15) /\ t_mu t = mu /\ t_L t = L.
Proof. intros P. unfold t_new. rewrite (proj2 (all_pos_ok d L) P). eexists. split; [reflexivity|]. repeat split. Qed.
(** log_prob, in both modes, is the log-density of the mixture with one precision for all the components, up to 1e-20. *)
Theorem C107_log_prob K d t x : (0 < K)%nat -> t_made K d t -> exists y t' z t'',
  t_log_prob_nat t x = Ok (y, t') /\ t_log_prob_std t x = Ok (z, t'') /\ z = y /\ t_made K d t' /\ t_made K d t'' /\
  ln (t_dens t x) <= y <= ln (t_dens t x) + / 10 ^ 20.
Proof.
  intros HK M. pose proof (t_made_inv K d t M) as [I _]. pose proof (logr_eq K d (view t) x I) as LR.
  destruct (C63_logsumexp (map (fun k => ln (used (view t) k * comp_dens d (g_mu (view t) k) (g_L (view t) k) x)) (seq 0 K)) (map_nonempty _ K HK)) as (y & E & B). rewrite (mix_sum K d (view t) x I) in B.
  destruct (made_dims K d t M) as (D1 & D2 & PL). specialize (fun j => PL j HK).
  assert (TD : t_dens t x = mix_dens K d (used (view t)) (g_mu (view t)) (g_L (view t)) x) by (unfold t_dens; rewrite D1, D2; reflexivity). rewrite TD.
  exists y, (snd (get_tlogpi t)), y, (snd (get_tchol (snd (get_tlogL (snd (get_tlogpi t)))))). split; [|split; [|split; [reflexivity|split; [apply tm_logpi; exact M|split; [apply tm_chol, tm_logL, tm_logpi; exact M|exact B]]]]].
  - unfold t_log_prob_nat, g_log_prob_nat. destruct (get_logpi_facts (view t)) as (F1 & F2 & _). pose proof (view_with t (snd (get_logpi (view t))) eq_refl) as VW. destruct (get_logpi (view t)) as [lp g1] eqn:G. cbn [fst snd] in *.
    rewrite F2. cbn [view g_d]. rewrite D2, LR, E. cbn [bind]. rewrite Rplus_0_l, VW. reflexivity.
  - pose proof (tm_logpi K d t M) as M1. unfold t_log_prob_std. destruct (tlogpi_facts t) as (F1 & F2 & F3 & F4 & F5 & F6 & F7 & F8 & F9 & _).
    assert (LP : forall k, (k < K)%nat -> exp (fst (get_tlogpi t) k) = t_used t k). { intros k Hk. rewrite <- view_used. rewrite <- (proj2 (used_logpi (view t) k (proj2 (proj2 (proj2 (proj2 (proj2 (proj2 I))))) k Hk))). unfold get_tlogpi. destruct (get_logpi (view t)). reflexivity. }
    destruct (get_tlogpi t) as [lp t1]. cbn [fst snd] in *. pose proof (t_made_inv K d t1 M1) as [(J1 & J2 & J3 & J4 & J5 & J6 & J7) _]. cbn [view g_logL g_chol g_L] in J5, J6.
    assert (LL : fst (get_tlogL t1) = sumn d (fun j => ln (t_L t j))). { unfold get_tlogL. destruct (t_logL t1) eqn:Q; [|cbn [fst]; rewrite F2, F5, D2; reflexivity]. cbn [fst]. specialize (J5 _ eq_refl 0%nat HK). cbn in J5. rewrite J5, F5. reflexivity. }
    assert (M2 : t_mu (snd (get_tlogL t1)) = t_mu t1 /\ t_L (snd (get_tlogL t1)) = t_L t1 /\ t_chol (snd (get_tlogL t1)) = t_chol t1 /\ t_d (snd (get_tlogL t1)) = t_d t1 /\ t_K (snd (get_tlogL t1)) = t_K t1) by (unfold get_tlogL; destruct (t_logL t1); repeat split).
    destruct (get_tlogL t1) as [ll t2]. cbn [fst snd] in *. destruct M2 as (M21 & M22 & M23 & M24 & M25).
    assert (CH : forall j, (j < d)%nat -> fst (get_tchol t2) j = sqrt (t_L t j)). { intros j J. unfold get_tchol. rewrite M23. destruct (t_chol t1) eqn:Q; [|cbn [fst]; rewrite M22, F5; reflexivity]. cbn [fst]. specialize (J6 _ eq_refl 0%nat j HK J). cbn in J6. rewrite J6, F5. reflexivity. }
    assert (M3 : t_mu (snd (get_tchol t2)) = t_mu t2 /\ t_d (snd (get_tchol t2)) = t_d t2 /\ t_K (snd (get_tchol t2)) = t_K t2) by (unfold get_tchol; destruct (t_chol t2); repeat split).
    destruct (get_tchol t2) as [ch t3]. cbn [fst snd] in *. destruct M3 as (M31 & M32 & M33).
    match goal with |- (l <- logsumexp ?m ;; _) = _ => assert (ME : m = map (fun k => ln (used (view t) k * comp_dens d (g_mu (view t) k) (g_L (view t) k) x)) (seq 0 K)) end.
    { rewrite M32, M33, M24, M25, F1, F2, D1, D2. apply map_ext_in. intros k Hk. apply in_seq in Hk. rewrite M31, M21, F4. cbn [view g_mu g_L]. rewrite view_used.
      rewrite (ln_mult (t_used t k)); [|apply (used_of_inv K d); [apply t_made_inv; exact M|lia]|apply comp_pos; exact PL]. rewrite <- (LP k ltac:(lia)), ln_exp, ln_comp, log_lik_form by exact PL. rewrite LL.
      rewrite (sumn_ext d (fun j => (x j - t_mu t k j) * ch j * ((x j - t_mu t k j) * ch j)) (fun j => t_L t j * (x j * x j - 2 * t_mu t k j * x j + t_mu t k j * t_mu t k j))).
      - rewrite !sumn_sub, !sumn_mul, sumn_const. ring.
      - intros j J. rewrite (CH j J). pose proof (sqrt_sqrt (t_L t j) (Rlt_le _ _ (PL j J))) as SS. transitivity ((sqrt (t_L t j) * sqrt (t_L t j)) * ((x j - t_mu t k j) * (x j - t_mu t k j))); [ring|rewrite SS; ring]. }
    rewrite ME, E. reflexivity.
Qed.
(** compute_pz gives the posterior probabilities of the components (C71), which are positive and sum to one. *)
Theorem C107_responsibilities K d t x : (0 < K)%nat -> t_made K d t -> exists z t', t_compute_pz t (suff d x) = Ok (z, t') /\ t_made K d t' /\ List.length z = K /\
  (forall k, (k < K)%nat -> nth_error z k = Some (t_resp t k x) /\ 0 < t_resp t k x) /\ sumn K (fun k => t_resp t k x) = 1.
Proof.
  intros HK M. pose proof (t_made_inv K d t M) as [I _]. destruct (made_dims K d t M) as (D1 & D2 & _). destruct (pz_row K d (view t) x HK I) as (z & E & LZ & Z).
  exists z, (snd (get_tlogpi t)). split.
  - unfold t_compute_pz, compute_pz. pose proof (view_with t (snd (get_logpi (view t))) eq_refl) as VW. destruct (get_logpi (view t)) as [lp g1]. cbn [fst snd] in *. rewrite E. cbn [bind]. rewrite VW. reflexivity.
  - split; [apply tm_logpi; exact M|]. split; [exact LZ|]. unfold t_resp. rewrite D1, D2. split; [|exact (resp_sum K d (view t) x HK I)].
    intros k Hk. split; [|exact (resp_pos K d (view t) x k Hk I)]. rewrite (nth_error_nth' z 0) by lia. rewrite (Z k Hk). reflexivity.
Qed.
Lemma cmean_t K d t x w k j : t_K t = K -> t_d t = d -> fits x w -> cmean K d (view t) x w k j = t_cmean t x w k j.
Proof. intros <- <- F. unfold cmean, wmean. rewrite !total_reweight by exact F. unfold t_cmean, t_count. apply f_equal2; apply total_ext; intros; (reflexivity || (rewrite Rmult_1_r; reflexivity)). Qed.
Lemma cvar_t K d t x w k j : t_K t = K -> t_d t = d -> fits x w -> cvar K d (view t) x w k j = t_cvar t x w k j.
Proof.
  intros E1 E2 F. unfold cvar, wvar. pose proof (cmean_t K d t x w k j E1 E2 F) as C. unfold cmean in C. rewrite C. rewrite !total_reweight by exact F. subst K d. unfold t_cvar, t_count. apply f_equal2; apply total_ext; intros; (reflexivity || (rewrite Rmult_1_r; reflexivity)).
Qed.
Lemma count_t K d t x w k : t_K t = K -> t_d t = d -> count_of K d (view t) x w k = t_count t x w k.
Proof. intros <- <-. reflexivity. Qed.
Lemma counts_sum K d t x w : (0 < K)%nat -> t_made K d t -> sumn K (t_count t x w) = total x w (fun _ => 1).
Proof.
  intros HK M. destruct (t_made_inv K d t M) as [I _]. destruct (made_dims K d t M) as (D1 & D2 & _). rewrite (sumn_ext K _ (fun k => total x w (t_resp t k))) by (intros; reflexivity). rewrite <- total_sumn.
  apply total_ext. intros r _. unfold t_resp. rewrite D1, D2. exact (resp_sum K d (view t) r HK I).
Qed.
Lemma t_count_pos K d t x w k : t_made K d t -> fits x w -> pos_weights w -> 0 < total x w (fun _ => 1) -> (k < K)%nat -> 0 < t_count t x w k.
Proof. intros M F W T Hk. destruct (made_dims K d t M) as (D1 & D2 & _). rewrite <- (count_t K d t x w k D1 D2). apply count_pos; try assumption. apply t_made_inv. exact M. Qed.
(** The E-step gives the statistics of the data weighted by the posterior probabilities, whatever the batch size. *)
Theorem C107_estep K d t x w b : (0 < K)%nat -> t_made K d t -> fits x w -> x <> [] -> good_batch b -> exists N u t', t_estep t x w b = Ok (N, u, t') /\ t_made K d t' /\
  (forall k, (k < K)%nat -> N k = t_count t x w k /\
     forall j, (j < d)%nat -> u k j = total x w (fun r => t_resp t k r * r j) /\ u k (d + j)%nat = total x w (fun r => t_resp t k r * (r j * r j))) /\
  sumn K N = total x w (fun _ => 1).
Proof.
  intros HK M F NE B. destruct (t_made_inv K d t M) as [I _]. destruct (made_dims K d t M) as (D1 & D2 & _). destruct (g_estep_ok K d (view t) x w b HK I F NE B) as (N & u & E & S).
  exists N, u, (snd (get_tlogpi t)). split; [unfold t_estep; rewrite E; cbn [bind]; rewrite (view_with t _ eq_refl); reflexivity|]. split; [apply tm_logpi; exact M|].
  assert (S' : forall k, (k < K)%nat -> N k = t_count t x w k /\
     forall j, (j < d)%nat -> u k j = total x w (fun r => t_resp t k r * r j) /\ u k (d + j)%nat = total x w (fun r => t_resp t k r * (r j * r j))) by (unfold t_count, t_resp; rewrite D1, D2; exact S).
  split; [exact S'|]. rewrite <- (counts_sum K d t x w HK M). apply sumn_ext. intros k Hk. apply (S' k Hk).
Qed.
(** One training iteration: the means are the posterior-weighted ones, the shared variance is the average of the (floored)
    posterior-weighted variances of the components in proportion to their counts, and the weights are the proportions. *)
Theorem C107_mstep K d t x w b : (0 < K)%nat -> t_made K d t -> t_updmu t = true -> fits x w -> pos_weights w -> x <> [] -> 0 < total x w (fun _ => 1) -> good_batch b ->
  (forall k, (k < K)%nat -> t_minN t < t_count t x w k) -> (t_updL t = true -> forall j, (j < d)%nat -> t_pooled t x w j <> 0) ->
  exists N u t1 t2, t_estep t x w b = Ok (N, u, t1) /\ t_mstep t1 N u = Ok (Some t2) /\ (forall k, (k < K)%nat -> 0 < N k) /\
  (forall k, (k < K)%nat -> t_used t2 k = t_used t k) /\
  (forall k j, (k < K)%nat -> (j < d)%nat -> t_mu t2 k j = t_cmean t x w k j) /\
  (forall j, (j < d)%nat -> t_L t2 j = if t_updL t then 1 / t_pooled t x w j else t_L t j) /\
  (forall k, (k < K)%nat -> t_pi t2 k = if t_updpi t then t_count t x w k / total x w (fun _ => 1) else t_pi t k) /\
  (t_updpi t = true -> sumn K (t_pi t2) = 1).
Proof.
  intros HK M UM F W NE T B BIG PZ. destruct (t_made_inv K d t M) as [I _]. destruct (made_dims K d t M) as (D1 & D2 & _). destruct (g_estep_ok K d (view t) x w b HK I F NE B) as (N & u & E & S).
  assert (ET : t_estep t x w b = Ok (N, u, snd (get_tlogpi t))) by (unfold t_estep; rewrite E; cbn [bind]; rewrite (view_with t _ eq_refl); reflexivity).
  assert (NP : forall k, (k < K)%nat -> N k = t_count t x w k) by (intros k Hk; rewrite <- (count_t K d t x w k D1 D2); exact (proj1 (S k Hk))).
  assert (PN : forall k, (k < K)%nat -> 0 < N k) by (intros k Hk; rewrite (NP k Hk); apply (t_count_pos K d); assumption).
  assert (SN : sumn K N = total x w (fun _ => 1)) by (rewrite <- (counts_sum K d t x w HK M); apply sumn_ext; exact NP).
  destruct (tlogpi_facts t) as (F1 & F2 & F3 & F4 & F5 & F6 & F7 & F8 & F9 & F10 & F11 & F12 & F13 & F14). pose proof (fun k (Hk : (k < K)%nat) => t_used_logpi t k (used_of_inv K d t k (t_made_inv K d t M) Hk)) as UL1.
  set (t1 := snd (get_tlogpi t)) in *.
  assert (MU : forall k j, (k < K)%nat -> (j < d)%nat -> u k j / N k = t_cmean t x w k j) by (intros k j Hk J; rewrite <- (cmean_t K d t x w k j D1 D2 F); apply cmean_stats; assumption).
  assert (VA : forall k j, (k < K)%nat -> (j < d)%nat -> u k (d + j)%nat / N k - (u k j / N k) * (u k j / N k) = t_cvar t x w k j) by (intros k j Hk J; rewrite <- (cvar_t K d t x w k j D1 D2 F); apply cvar_stats; try assumption; apply PN; exact Hk).
  assert (FLO : forall j, (j < d)%nat -> s_floor K (t_floor t) (t_minN t) N (fun k j => u k (d + j)%nat / N k - u k j / N k * (u k j / N k)) j = t_vfloor t x w j).
  { intros j J. unfold s_floor, t_vfloor, average. f_equal. rewrite map_length, D1.
    assert (FE : filter (fun k => Rltb (t_minN t) (N k)) (seq 0 K) = filter (fun k => if Rlt_dec (t_minN t) (t_count t x w k) then true else false) (seq 0 K)) by (apply filter_ext_seq; intros i Hi; unfold Rltb; rewrite (NP i Hi); reflexivity).
    rewrite FE. f_equal. apply Rsum_ext. intros i Hi. apply filter_In in Hi. destruct Hi as [Hi _]. apply in_seq in Hi. apply VA; [lia|exact J]. }
  assert (SPO : forall j, (j < d)%nat -> sumn K (fun k => N k * Rmax (u k (d + j)%nat / N k - u k j / N k * (u k j / N k)) (s_floor K (t_floor t) (t_minN t) N (fun k j => u k (d + j)%nat / N k - u k j / N k * (u k j / N k)) j)) / sumn K N = t_pooled t x w j).
  { intros j J. unfold t_pooled. rewrite SN, D1. f_equal. apply sumn_ext. intros k Hk. rewrite (FLO j J), (VA k j Hk J), (NP k Hk). reflexivity. }
  assert (MS : exists t2, t_mstep t1 N u = Ok (Some t2)).
  { unfold t_mstep. rewrite F1, F2, D1, D2. match goal with |- context [_ && existsb ?p (seq 0 K)] => assert (X1 : existsb p (seq 0 K) = false) end.
    { apply Bool.not_true_iff_false. intros X. apply existsb_exists in X. destruct X as (k & Hk & X). apply in_seq in Hk. destruct (Req_EM_T (N k) 0); [|discriminate]. specialize (PN k ltac:(lia)). lra. }
    rewrite X1, Bool.andb_false_r. assert (X2 : existsb (fun k => Rltb (t_minN t1) (N k)) (seq 0 K) = true). { apply existsb_exists. exists 0%nat. split; [apply in_seq; lia|]. unfold Rltb. rewrite F11, (NP 0%nat HK). specialize (BIG 0%nat HK). destruct (Rlt_dec _ _); [reflexivity|contradiction]. }
    rewrite X2. cbn [negb]. rewrite Bool.andb_false_r, F13, UM. cbv zeta. match goal with |- context [t_updL t1 && existsb ?p (seq 0 d)] => assert (X4 : t_updL t1 && existsb p (seq 0 d) = false) end.
    { rewrite F14. destruct (t_updL t); [|reflexivity]. cbn [andb]. apply Bool.not_true_iff_false. intros X. apply existsb_exists in X. destruct X as (j & J & X). apply in_seq in J. rewrite F10, F11, SPO in X by lia. destruct (Req_EM_T _ 0) as [Z|]; [|discriminate]. exact (PZ eq_refl j ltac:(lia) Z). }
    rewrite X4. cbn [t_nat]. assert (X3 : existsb (fun k => Rltb (N k) (t_minN t1)) (seq 0 K) = false).
    { apply Bool.not_true_iff_false. intros X. apply existsb_exists in X. destruct X as (k & Hk & X). apply in_seq in Hk. unfold Rltb in X. specialize (BIG k ltac:(lia)). rewrite <- NP in BIG by lia. rewrite F11 in X. destruct (Rlt_dec _ _); [lra|discriminate]. }
    rewrite X3. destruct (t_updpi t1); eexists; reflexivity. }
  destruct MS as (t2 & MS). exists N, u, t1, t2. split; [exact ET|]. split; [exact MS|]. split; [exact PN|].
  destruct (tmstep_facts t1 N u t2 MS) as (G1 & G2 & G3 & G4 & _ & _ & G7 & _ & _ & G10 & _). rewrite F13, UM in G3, G4. rewrite F1, F2, D1, D2 in *.
  split; [intros k Hk; rewrite <- (UL1 k Hk); unfold t_used; rewrite G7; destruct (t_logpi t1) eqn:LPE; [reflexivity|exfalso; destruct (tlogpi_some t) as (v & V); unfold t1 in LPE; congruence]|].
  split; [intros k j Hk J; rewrite G3; apply MU; assumption|].
  split. { intros j J. rewrite G4, F14. destruct (t_updL t); [|rewrite F5; reflexivity]. rewrite F10, F11. rewrite (SPO j J). reflexivity. }
  rewrite G10, F12. destruct (t_updpi t).
  - split; [intros k Hk; rewrite SN, (NP k Hk); reflexivity|]. intros _. rewrite (sumn_ext K (fun k => N k / sumn K N) (fun k => / sumn K N * N k)) by (intros; unfold Rdiv; ring). rewrite sumn_mul. apply Rinv_l. rewrite SN. lra.
  - split; [intros; rewrite F3; reflexivity|]. discriminate.
Qed.
(** *** Training and the likelihood *)
(** expected log-density of the data assigned by the posterior probabilities of t, with means mu and one precision l *)
Definition expected (t : tgmm) x w (mu : nat -> nat -> R) (l : nat -> R) : R := sumn (t_K t) (fun k => total x w (fun r => t_resp t k r * ln (comp_dens (t_d t) (mu k) l r))).
Lemma expected_form K d t x w mu l : (0 < K)%nat -> t_made K d t -> fits x w -> pos_weights w -> 0 < total x w (fun _ => 1) -> (forall j, (j < d)%nat -> 0 < l j) ->
  expected t x w mu l = total x w (fun _ => 1) * sumn d (fun j => 1/2 * (ln (l j) - l j * (sumn K (fun k => t_count t x w k * t_cvar t x w k j) / total x w (fun _ => 1) + sumn K (fun k => t_count t x w k * (t_cmean t x w k j - mu k j)²) / total x w (fun _ => 1))) - 1/2 * ln (2 * PI)).
Proof.
  intros HK M F W T PL. destruct (made_dims K d t M) as (D1 & D2 & _). pose proof (counts_sum K d t x w HK M) as SN. set (TT := total x w (fun _ => 1)) in *.
  unfold expected. rewrite D1, D2.
  assert (Q : forall k, (k < K)%nat -> total x w (fun r => t_resp t k r * ln (comp_dens d (mu k) l r)) =
    sumn d (fun j => (1/2 * ln (l j) - 1/2 * ln (2 * PI)) * t_count t x w k - 1/2 * l j * (t_count t x w k * t_cvar t x w k j + t_count t x w k * (t_cmean t x w k j - mu k j)²))).
  { intros k Hk. rewrite (total_ext x w _ (fun r => t_resp t k r * log_lik d (mu k) l r)) by (intros; rewrite ln_comp by exact PL; reflexivity). rewrite <- (total_reweight x w (t_resp t k) (log_lik d (mu k) l) F).
    assert (CE : total x (reweight x w (t_resp t k)) (fun _ => 1) = t_count t x w k) by (rewrite total_reweight by exact F; apply total_ext; intros; ring).
    assert (CP : 0 < t_count t x w k) by (apply (t_count_pos K d); assumption).
    rewrite lik_form by (assumption || (rewrite CE; exact CP)). rewrite CE, <- sumn_mul. apply sumn_ext. intros j J. pose proof (cmean_t K d t x w k j D1 D2 F) as C1. pose proof (cvar_t K d t x w k j D1 D2 F) as C2. unfold cmean in C1. unfold cvar in C2.
    assert (RE : resp K d (used (view t)) (g_mu (view t)) (g_L (view t)) k = t_resp t k) by (unfold t_resp; rewrite D1, D2; reflexivity). rewrite RE in C1, C2. rewrite C1, C2. ring. }
  rewrite (sumn_ext K _ _ Q). rewrite sumn_swap. rewrite <- sumn_mul. apply sumn_ext. intros j J. rewrite sumn_sub, !sumn_mul. rewrite sumn_add, SN. field. lra.
Qed.
Lemma em_summed K d wt mu L mu' L' x w : (0 < K)%nat -> (forall k, (k < K)%nat -> 0 < wt k) -> (forall k j, (k < K)%nat -> (j < d)%nat -> 0 < L k j) -> (forall k j, (k < K)%nat -> (j < d)%nat -> 0 < L' k j) ->
  fits x w -> pos_weights w ->
  sumn K (fun k => total x w (fun r => resp K d wt mu L k r * ln (comp_dens d (mu k) (L k) r))) <= sumn K (fun k => total x w (fun r => resp K d wt mu L k r * ln (comp_dens d (mu' k) (L' k) r))) ->
  total x w (fun r => ln (mix_dens K d wt mu L r)) <= total x w (fun r => ln (mix_dens K d wt mu' L' r)).
Proof.
  intros HK PW PL PL' F W H.
  assert (Q : total x w (fun r => sumn K (fun k => resp K d wt mu L k r * (ln (comp_dens d (mu' k) (L' k) r) - ln (comp_dens d (mu k) (L k) r)))) <= total x w (fun r => ln (mix_dens K d wt mu' L' r) + -1 * ln (mix_dens K d wt mu L r))).
  { apply total_le; try assumption. intros r _. pose proof (jensen K (fun k => wt k * comp_dens d (mu k) (L k) r) (fun k => wt k * comp_dens d (mu' k) (L' k) r) HK) as J.
    assert (P1 : forall k, (k < K)%nat -> 0 < comp_dens d (mu k) (L k) r) by (intros; apply comp_pos; intros; apply PL; assumption).
    assert (P2 : forall k, (k < K)%nat -> 0 < comp_dens d (mu' k) (L' k) r) by (intros; apply comp_pos; intros; apply PL'; assumption).
    specialize (J ltac:(intros; apply Rmult_lt_0_compat; auto) ltac:(intros; apply Rmult_lt_0_compat; auto)). cbv beta in J. fold (mix_dens K d wt mu L r) in J. fold (mix_dens K d wt mu' L' r) in J. replace (ln (mix_dens K d wt mu' L' r) + -1 * ln (mix_dens K d wt mu L r)) with (ln (mix_dens K d wt mu' L' r) - ln (mix_dens K d wt mu L r)) by ring.
    eapply Rle_trans; [right|exact J]. apply sumn_ext. intros k Hk. unfold resp. f_equal. rewrite !ln_mult by auto. ring. }
  rewrite total_add, total_mul, total_sumn in Q.
  rewrite (sumn_ext K _ (fun k => total x w (fun r => resp K d wt mu L k r * ln (comp_dens d (mu' k) (L' k) r)) - total x w (fun r => resp K d wt mu L k r * ln (comp_dens d (mu k) (L k) r)))) in Q.
  - rewrite sumn_sub in Q. lra.
  - intros k Hk. rewrite (total_ext x w _ (fun r => resp K d wt mu L k r * ln (comp_dens d (mu' k) (L' k) r) + -1 * (resp K d wt mu L k r * ln (comp_dens d (mu k) (L k) r)))) by (intros; ring). rewrite total_add, total_mul. lra.
Qed.
Lemma pooled_cvar K d t x w j : (0 < K)%nat -> t_made K d t -> fits x w -> pos_weights w -> 0 < total x w (fun _ => 1) ->
  sumn K (fun k => t_count t x w k * t_cvar t x w k j) / total x w (fun _ => 1) <= t_pooled t x w j /\
  ((forall k, (k < K)%nat -> t_vfloor t x w j <= t_cvar t x w k j) -> sumn K (fun k => t_count t x w k * t_cvar t x w k j) / total x w (fun _ => 1) = t_pooled t x w j).
Proof.
  intros HK M F W T. destruct (made_dims K d t M) as (D1 & D2 & _). unfold t_pooled. rewrite D1. split.
  - apply Rmult_le_compat_r; [left; apply Rinv_0_lt_compat; exact T|]. apply sumn_le. intros k Hk. apply Rmult_le_compat_l; [left; apply (t_count_pos K d); assumption|apply Rmax_l].
  - intros H. f_equal. apply sumn_ext. intros k Hk. rewrite Rmax_left by (apply H; exact Hk). reflexivity.
Qed.
(** When no variance is below the floor, the new means and precision are the best ones: no other means and no other shared precision
    give a larger expected log-density of the data assigned by the posterior probabilities. *)
Theorem C107_mstep_optimal K d t x w b N u t1 t2 : (0 < K)%nat -> t_made K d t -> t_updmu t = true -> t_updL t = true -> fits x w -> pos_weights w -> x <> [] -> 0 < total x w (fun _ => 1) -> good_batch b ->
  (forall k, (k < K)%nat -> t_minN t < t_count t x w k) -> (forall j, (j < d)%nat -> 0 < t_pooled t x w j) ->
  (forall k j, (k < K)%nat -> (j < d)%nat -> t_vfloor t x w j <= t_cvar t x w k j) ->
  t_estep t x w b = Ok (N, u, t1) -> t_mstep t1 N u = Ok (Some t2) ->
  forall mu l, (forall j, (j < d)%nat -> 0 < l j) -> expected t x w mu l <= expected t x w (t_mu t2) (t_L t2).
Proof.
  intros HK M UM UL F W NE T B BIG PP FL E MS mu l Pl. destruct (C107_mstep K d t x w b HK M UM F W NE T B BIG) as (N' & u' & t1' & t2' & E' & MS' & PN & _ & V1 & V2 & _).
  { intros _ j J. specialize (PP j J). lra. }
  rewrite E in E'. injection E' as <- <- <-. rewrite MS in MS'. injection MS' as <-. rewrite UL in V2.
  assert (PL2 : forall j, (j < d)%nat -> 0 < t_L t2 j) by (intros j J; rewrite (V2 j J); apply Rdiv_lt_0_compat; [lra|auto]).
  rewrite (expected_form K d t x w mu l HK M F W T Pl), (expected_form K d t x w (t_mu t2) (t_L t2) HK M F W T PL2). apply Rmult_le_compat_l; [lra|]. apply sumn_le. intros j J.
  destruct (pooled_cvar K d t x w j HK M F W T) as [_ PE]. rewrite PE by (intros; apply FL; assumption). specialize (PP j J). set (v := t_pooled t x w j) in *.
  assert (D0 : sumn K (fun k => t_count t x w k * (t_cmean t x w k j - t_mu t2 k j)²) = 0) by (rewrite (sumn_ext K _ (fun _ => 0)) by (intros k Hk; rewrite (V1 k j Hk J); unfold Rsqr; ring); rewrite sumn_const; ring). rewrite D0.
  set (D := sumn K (fun k => t_count t x w k * (t_cmean t x w k j - mu k j)²) / total x w (fun _ => 1)).
  assert (DP : 0 <= D). { apply Rmult_le_pos; [|left; apply Rinv_0_lt_compat; exact T]. apply sumn_nonneg. intros k Hk. apply Rmult_le_pos; [left; apply (t_count_pos K d); assumption|apply Rle_0_sqr]. }
  rewrite (V2 j J). fold v. assert (MX : Rmax v 0 = v) by (apply Rmax_left; lra). pose proof (ml_gen 0 v (l j) D ltac:(rewrite MX; exact PP) (Pl j J) ltac:(lra) DP) as Q. rewrite MX in Q. unfold Rdiv at 5. lra.
Qed.
(** An iteration of training does not decrease the log-likelihood of the data, if in each coordinate either no variance is below the
    floor or the new shared variance is not above the old one. *)
Theorem C107_em_increases K d t x w b N u t1 t2 : (0 < K)%nat -> t_made K d t -> t_updmu t = true -> fits x w -> pos_weights w -> x <> [] -> 0 < total x w (fun _ => 1) -> good_batch b ->
  (forall k, (k < K)%nat -> t_minN t < t_count t x w k) ->
  (t_updL t = true -> forall j, (j < d)%nat -> 0 < t_pooled t x w j /\ ((forall k, (k < K)%nat -> t_vfloor t x w j <= t_cvar t x w k j) \/ t_pooled t x w j <= 1 / t_L t j)) ->
  t_estep t x w b = Ok (N, u, t1) -> t_mstep t1 N u = Ok (Some t2) ->
  t_made K d t2 /\ total x w (fun r => ln (t_dens t r)) <= total x w (fun r => ln (t_dens t2 r)).
Proof.
  intros HK M UM F W NE T B BIG FL E MS. destruct (C107_mstep K d t x w b HK M UM F W NE T B BIG) as (N' & u' & t1' & t2' & E' & MS' & PN & U & V1 & V2 & _).
  { intros UL j J. destruct (FL UL j J) as [P _]. lra. }
  rewrite E in E'. injection E' as <- <- <-. rewrite MS in MS'. injection MS' as <-.
  destruct (made_dims K d t M) as (D1 & D2 & PL). specialize (fun j => PL j HK).
  assert (PL2 : forall j, (j < d)%nat -> 0 < t_L t2 j). { intros j J. rewrite (V2 j J). destruct (t_updL t) eqn:UL; [|auto]. destruct (FL eq_refl j J) as [P _]. apply Rdiv_lt_0_compat; [lra|exact P]. }
  destruct (C107_estep K d t x w b HK M F NE B) as (N'' & u'' & t1'' & E'' & M1 & _). rewrite E in E''. injection E'' as <- <- <-.
  assert (M2 : t_made K d t2) by (apply (tm_mstep K d t1 N u); assumption). split; [exact M2|].
  destruct (made_dims K d t2 M2) as (D3 & D4 & _). unfold t_dens. rewrite D1, D2, D3, D4.
  rewrite (total_ext x w (fun r => ln (mix_dens K d (t_used t2) (t_mu t2) (fun _ => t_L t2) r)) (fun r => ln (mix_dens K d (t_used t) (t_mu t2) (fun _ => t_L t2) r))) by (intros; rewrite (mix_ext K d (t_used t2) (t_used t)) by exact U; reflexivity).
  apply em_summed; try assumption; [intros k Hk; apply (used_of_inv K d); [apply t_made_inv; exact M|exact Hk]|intros; auto|intros; auto|].
  assert (X : expected t x w (t_mu t) (t_L t) <= expected t x w (t_mu t2) (t_L t2)); [|unfold expected, t_resp in X; rewrite D1, D2 in X; exact X].
  rewrite (expected_form K d t x w (t_mu t) (t_L t) HK M F W T PL), (expected_form K d t x w (t_mu t2) (t_L t2) HK M F W T PL2). apply Rmult_le_compat_l; [lra|]. apply sumn_le. intros j J.
  assert (D0 : sumn K (fun k => t_count t x w k * (t_cmean t x w k j - t_mu t2 k j)²) = 0) by (rewrite (sumn_ext K _ (fun _ => 0)) by (intros k Hk; rewrite (V1 k j Hk J); unfold Rsqr; ring); rewrite sumn_const; ring). rewrite D0.
  set (D := sumn K (fun k => t_count t x w k * (t_cmean t x w k j - t_mu t k j)²) / total x w (fun _ => 1)).
  assert (DP : 0 <= D). { apply Rmult_le_pos; [|left; apply Rinv_0_lt_compat; exact T]. apply sumn_nonneg. intros k Hk. apply Rmult_le_pos; [left; apply (t_count_pos K d); assumption|apply Rle_0_sqr]. }
  destruct (pooled_cvar K d t x w j HK M F W T) as [PV PE]. specialize (V2 j J). specialize (PL j J). set (V := sumn K (fun k => t_count t x w k * t_cvar t x w k j) / total x w (fun _ => 1)) in *.
  replace (V + 0 / total x w (fun _ => 1)) with V by (unfold Rdiv; ring).
  destruct (t_updL t); [|rewrite V2; nra]. destruct (FL eq_refl j J) as [PP [H|H]]; rewrite V2.
  - rewrite PE in * by exact H. set (v := t_pooled t x w j) in *. assert (MX : Rmax v 0 = v) by (apply Rmax_left; lra). pose proof (ml_gen 0 v (t_L t j) D ltac:(rewrite MX; exact PP) PL ltac:(lra) DP) as Q. rewrite MX in Q. lra.
  - assert (MX : Rmax V (t_pooled t x w j) = t_pooled t x w j) by (apply Rmax_right; exact PV).
    assert (H1 : t_L t j * t_pooled t x w j <= 1). { apply (Rmult_le_compat_l (t_L t j)) in H; [|lra]. replace (t_L t j * (1 / t_L t j)) with 1 in H by (field; lra). exact H. }
    pose proof (ml_gen (t_pooled t x w j) V (t_L t j) D ltac:(rewrite MX; exact PP) PL H1 DP) as Q. rewrite MX in Q. lra.
Qed.
(** The value of the bound with the statistics of the E-step is the log-likelihood minus the entropy of the posteriors. *)
Theorem C107_elbo K d t x w b : (0 < K)%nat -> t_made K d t -> fits x w -> pos_weights w -> x <> [] -> good_batch b -> exists N u t1 e t2,
  t_estep t x w b = Ok (N, u, t1) /\ t_elbo t1 N u = (e, t2) /\ t_made K d t2 /\
  e = total x w (fun r => ln (t_dens t r)) - total x w (fun r => sumn K (fun k => - (t_resp t k r * ln (t_resp t k r)))).
Proof.
  intros HK M F W NE B. destruct (t_made_inv K d t M) as [I _]. destruct (made_dims K d t M) as (D1 & D2 & PL). specialize (fun j => PL j HK). destruct (C107_estep K d t x w b HK M F NE B) as (N & u & t1 & E & M1 & S & _).
  assert (ET : t1 = snd (get_tlogpi t)). { destruct (g_estep_ok K d (view t) x w b HK I F NE B) as (N' & u' & E' & _). unfold t_estep in E. rewrite E' in E. cbn [bind] in E. rewrite (view_with t _ eq_refl) in E. congruence. }
  pose proof (view_logpi t) as VL. rewrite <- ET in VL. exists N, u, t1.
  unfold t_elbo, g_elbo. rewrite VL. destruct (get_logpi_facts (view t)) as (F1 & F2 & F3 & F4 & F5 & F6 & _ & _ & _ & _ & _ & _ & _ & _ & _ & F16).
  assert (LP : get_logpi (snd (get_logpi (view t))) = (fst (get_logpi (view t)), snd (get_logpi (view t)))) by (unfold get_logpi at 1; rewrite F16; reflexivity). rewrite LP. eexists _, _. split; [exact E|]. split; [reflexivity|].
  split. { assert (X : with_logpi t1 (g_logpi (snd (get_logpi (view t)))) = t1); [|rewrite X; exact M1]. rewrite <- VL. cbn [view g_logpi]. destruct t1; reflexivity. }
  rewrite F1, F2, F5, F6. cbn [view g_K g_d g_eta g_A]. rewrite D1, D2, Rplus_0_l.
  transitivity (total x w (fun r => sumn K (fun k => t_resp t k r * ln (t_used t k * comp_dens d (t_mu t k) (t_L t) r)))).
  - rewrite total_sumn, <- sumn_add. apply sumn_ext. intros k Hk. destruct (S k Hk) as [S1 S2].
    rewrite (total_ext x w (fun r => t_resp t k r * ln (t_used t k * comp_dens d (t_mu t k) (t_L t) r)) (fun r => sumn (2 * d) (fun j => t_eta t k j * (t_resp t k r * suff d r j)) + (fst (get_logpi (view t)) k - t_A t k) * t_resp t k r)).
    2: { intros r _. pose proof (logr_pt K d (view t) r k I Hk) as LR. cbn [view g_eta g_A g_mu g_L] in LR. rewrite view_used in LR. rewrite <- LR. rewrite (sumn_ext (2 * d) (fun j => t_eta t k j * (t_resp t k r * suff d r j)) (fun j => t_resp t k r * (suff d r j * t_eta t k j))) by (intros; ring). rewrite sumn_mul. ring. }
    rewrite total_add, total_mul, total_sumn, S1. unfold t_count. rewrite (Rmult_comm (total x w (t_resp t k))). f_equal. apply sumn_ext. intros j J. rewrite total_mul, Rmult_comm. f_equal. 
    destruct (Nat.lt_ge_cases j d) as [Hj|Hj].
    + rewrite (proj1 (S2 j Hj)). apply total_ext. intros. unfold suff. destruct (Nat.ltb_spec j d); [reflexivity|lia].
    + replace j with (d + (j - d))%nat at 1 by lia. rewrite (proj2 (S2 (j - d)%nat ltac:(lia))). apply total_ext. intros. unfold suff. destruct (Nat.ltb_spec j d); [lia|reflexivity].
  - enough (X : forall r, sumn K (fun k => t_resp t k r * ln (t_used t k * comp_dens d (t_mu t k) (t_L t) r)) = ln (t_dens t r) + -1 * sumn K (fun k => - (t_resp t k r * ln (t_resp t k r)))).
    { rewrite (total_ext x w _ _ (fun r _ => X r)). rewrite total_add, total_mul. lra. }
    intros r. assert (RS : sumn K (fun k => t_resp t k r) = 1) by (unfold t_resp; rewrite D1, D2; exact (resp_sum K d (view t) r HK I)).
    assert (UP : forall k, (k < K)%nat -> 0 < t_used t k) by (intros k Hk; exact (used_of_inv K d t k (t_made_inv K d t M) Hk)).
    assert (DP : 0 < t_dens t r) by (unfold t_dens; rewrite D1, D2; apply mix_pos; auto).
    rewrite (sumn_ext K (fun k => t_resp t k r * ln (t_used t k * comp_dens d (t_mu t k) (t_L t) r)) (fun k => ln (t_dens t r) * t_resp t k r + -1 * - (t_resp t k r * ln (t_resp t k r)))).
    + rewrite sumn_add, !sumn_mul, RS. ring.
    + intros k Hk. assert (JP : 0 < t_used t k * comp_dens d (t_mu t k) (t_L t) r) by (apply Rmult_lt_0_compat; [auto|apply comp_pos; exact PL]).
      assert (LR : ln (t_resp t k r) = ln (t_used t k * comp_dens d (t_mu t k) (t_L t) r) - ln (t_dens t r)) by (unfold t_resp, resp; fold (t_dens t r); rewrite D2; apply ln_quot; assumption). rewrite LR. ring.
Qed.
(** Sigma is the inverse of the precision, whatever has been read or trained before. *)
Theorem C107_sigma K d t j : t_made K d t -> (j < d)%nat -> fst (get_tsigma t) j = 1 / t_L t j.
Proof. intros M J. destruct (t_made_inv K d t M) as [_ IS]. unfold get_tsigma. destruct (t_sigma t) eqn:E; [exact (IS _ E j J)|reflexivity]. Qed.
(** *** Splitting in two: the weights are halved, the means move one standard deviation to either side, the precision stays *)
Theorem C107_split K d t : (0 < K)%nat -> t_made K d t -> (forall k, (k < K)%nat -> 0 <= t_pi t k) -> exists t', t_split2 t = Ok t' /\ t_made (2 * K) d t' /\
  sumn (2 * K) (t_pi t') = sumn K (t_pi t) /\ (forall j, (j < d)%nat -> sumn (2 * K) (fun k => t_pi t' k * t_mu t' k j) = sumn K (fun k => t_pi t k * t_mu t k j)) /\
  (forall k j, (k < K)%nat -> (j < d)%nat -> let sd := sqrt (1 / t_L t j) in t_mu t' (2 * k)%nat j = t_mu t k j + sd /\ t_mu t' (2 * k + 1)%nat j = t_mu t k j - sd) /\
  (forall j, (j < d)%nat -> t_L t' j = t_L t j).
Proof.
  intros HK M P. destruct (t_made_inv K d t M) as [(_ & _ & _ & _ & _ & I6 & _) _]. destruct (made_dims K d t M) as (D1 & D2 & PL). specialize (fun j => PL j HK). unfold t_split2.
  assert (CH : forall j, (j < d)%nat -> fst (get_tchol t) j = sqrt (t_L t j)). { intros j J. unfold get_tchol. cbn [view g_chol g_L] in I6. destruct (t_chol t) eqn:Q; [|reflexivity]. exact (I6 _ eq_refl 0%nat j HK J). }
  assert (FG : t_K (snd (get_tchol t)) = t_K t /\ t_d (snd (get_tchol t)) = t_d t /\ t_pi (snd (get_tchol t)) = t_pi t /\ t_mu (snd (get_tchol t)) = t_mu t /\ t_L (snd (get_tchol t)) = t_L t) by (unfold get_tchol; destruct (t_chol t); repeat split).
  destruct (get_tchol t) as [ch t0]. cbn [fst snd] in *. destruct FG as (G1 & G2 & G3 & G4 & G5). rewrite G1, G2, G3, G4, G5, D1, D2.
  match goal with |- context [t_new ?a ?b ?c ?e ?f ?g ?h ?i ?j ?k] => destruct (C107_new a b c e f g h i j k PL) as (t' & E & T1 & T2 & T3 & T4 & T5); pose proof E as E0 end.
  exists t'. split; [exact E|]. assert (TP : t_pi t' = fun k => t_pi t (k / 2)%nat / 2) by (unfold t_new in E0; destruct (all_pos d (t_L t)); [|discriminate]; cbn [t_nat] in E0; injection E0 as <-; reflexivity).
  split. { eapply tm_new; [|exact E]. intros k Hk. cbv beta. assert (k / 2 < K)%nat by (apply Nat.div_lt_upper_bound; lia). specialize (P (k / 2)%nat H). lra. }
  rewrite TP, T4. split; [|split; [|split]].
  - rewrite sumn_pairs. apply sumn_ext. intros k Hk. rewrite half_even, half_odd. lra.
  - intros j J. rewrite sumn_pairs. apply sumn_ext. intros k Hk. rewrite half_even, half_odd. replace (Nat.even (2 * k)) with true by (symmetry; apply Nat.even_spec; exists k; reflexivity). replace (Nat.even (2 * k + 1)) with false by (symmetry; rewrite Nat.add_1_r, Nat.even_succ, Nat.odd_mul; reflexivity). lra.
  - intros k j Hk J. cbv zeta. rewrite half_even, half_odd. replace (Nat.even (2 * k)) with true by (symmetry; apply Nat.even_spec; exists k; reflexivity). replace (Nat.even (2 * k + 1)) with false by (symmetry; rewrite Nat.add_1_r, Nat.even_succ, Nat.odd_mul; reflexivity).
    rewrite (CH j J). replace (sqrt (1 / t_L t j)) with (1 / sqrt (t_L t j)); [split; ring|]. unfold Rdiv. rewrite !Rmult_1_l. symmetry. apply sqrt_inv.
  - intros j J. rewrite T5. reflexivity.
Qed.
(** *** From natural parameters and back *)
Theorem C107_round_trip d mu L k j : (j < d)%nat -> 0 < L j -> fst (t_compute_std d (t_compute_eta d mu L)) k j = mu k j /\ snd (t_compute_std d (t_compute_eta d mu L)) j = L j.
Proof.
  intros J P. unfold t_compute_std, t_compute_eta. cbn [fst snd]. destruct (Nat.ltb_spec j d); [|lia]. destruct (Nat.ltb_spec (d + j) d); [lia|]. replace (d + j - d)%nat with j by lia. split; [field; lra|lra].
Qed.
(** Natural parameters whose rows have different precisions are accepted; the precision of the first row then replaces the others, and
    the two ways of computing log_prob differ. *)
Theorem C107_untied_eta_refuted : exists t, let eta := fun k j => if (j =? 0)%nat then 0 else if (k =? 0)%nat then - (1/2) else - 2 in
  t = t_new_eta 2 1 (fun _ => 1/2) eta (1/1000) 0 true true true /\ t_L t 0%nat = 1 /\ - 2 * t_eta t 1%nat 1%nat = 4 /\
  forall y z t' t'', t_log_prob_nat t (fun _ => 0) = Ok (y, t') -> t_log_prob_std t (fun _ => 0) = Ok (z, t'') -> z < y.
Proof.
  eexists. cbv zeta. split; [reflexivity|]. split; [cbn; lra|]. split; [cbn; lra|]. intros y z t' t'' Y Z.
  set (c := ln (1 / 2 + pi_eps) - 1 / 2 * ln (2 * PI)).
  assert (L4 : ln 4 = 2 * ln 2) by (replace 4 with (2 * 2) by lra; rewrite ln_mult by lra; ring).
  assert (YE : logsumexp [c; c + ln 2] = Ok y).
  { unfold t_log_prob_nat, g_log_prob_nat, get_logpi, t_new_eta, t_compute_std, view, logr in Y. cbn [g_logpi t_logpi g_d t_d g_K t_K g_eta t_eta g_A t_A g_pi t_pi seq map] in Y. unfold sumn, A_nat, suff in Y. cbn [Nat.mul Nat.add seq map Nat.ltb Nat.leb Nat.eqb Nat.sub] in Y.
    match type of Y with (bind (bind (logsumexp [?a; ?b]) _) _) = _ => assert (A1 : a = c); [|assert (A2 : b = c + ln 2); [|rewrite A1, A2 in Y]] end.
    - unfold c, sumn. cbn [seq map Rsum fold_right Nat.eqb INR]. replace (-2 * - (1 / 2)) with 1 by lra. rewrite ln_1. lra.
    - unfold c, sumn. cbn [seq map Rsum fold_right Nat.eqb INR]. replace (-2 * -2) with 4 by lra. rewrite L4. lra.
    - destruct (logsumexp [c; c + ln 2]); cbn [bind] in Y; [|discriminate]. rewrite Rplus_0_l in Y. injection Y as -> _. reflexivity. }
  assert (ZE : logsumexp [c; c] = Ok z).
  { unfold t_log_prob_std, get_tlogpi, get_logpi, t_new_eta, t_compute_std, view, with_logpi in Z. cbn [g_logpi t_logpi g_pi t_pi get_tlogL t_logL get_tchol t_chol t_d t_K t_mu t_L seq map Nat.add Nat.eqb] in Z.
    match type of Z with (bind (logsumexp [?a; ?b]) _) = _ => assert (A1 : a = c); [|assert (A2 : b = c); [|rewrite A1, A2 in Z]] end.
    - unfold c, sumn. cbn [seq map Rsum fold_right Nat.eqb INR Nat.add]. replace (-2 * - (1 / 2)) with 1 by lra. rewrite ln_1, sqrt_1. lra.
    - unfold c, sumn. cbn [seq map Rsum fold_right Nat.eqb INR Nat.add]. replace (-2 * - (1 / 2)) with 1 by lra. rewrite ln_1, sqrt_1. lra.
    - destruct (logsumexp [c; c]); cbn [bind] in Z; [|discriminate]. injection Z as -> _. reflexivity. }
  destruct (C63_logsumexp [c; c + ln 2] ltac:(discriminate)) as (y' & Y1 & Y2). rewrite YE in Y1. injection Y1 as <-.
  destruct (C63_logsumexp [c; c] ltac:(discriminate)) as (z' & Z1 & Z2). rewrite ZE in Z1. injection Z1 as <-.
  rewrite sum_exp_sum in Y2, Z2. cbn [map Rsum fold_right] in Y2, Z2. rewrite exp_plus, exp_ln in Y2 by lra. pose proof (exp_pos c) as CP.
  replace (exp c + (exp c * 2 + 0)) with (3 * exp c) in Y2 by ring. replace (exp c + (exp c + 0)) with (2 * exp c) in Z2 by ring. rewrite ln_mult in Y2, Z2 by lra.
  assert (L32 : 1 / 3 <= ln 3 - ln 2). { pose proof (ln_le_sub1 (2 / 3) ltac:(lra)) as Q. rewrite ln_quot in Q by lra. lra. }
  assert (/ 10 ^ 20 < 1 / 3) by (assert (1 < 10 ^ 19) by (apply Rlt_pow_R1; [lra|lia]); replace (10 ^ 20) with (10 * 10 ^ 19) by (simpl; ring); apply Rlt_le_trans with (/ 3); [apply Rinv_lt_contravar; lra|lra]). lra.
Qed.
(** A count below min_N makes the update of the weights read an undefined name. *)
Theorem C107_small_count_refuted t N u k : (k < t_K t)%nat -> (forall i, (i < t_K t)%nat -> N i <> 0) -> N k < t_minN t -> t_updpi t = true -> t_updL t = false -> t_mstep t N u = Err NameError.
Proof.
  intros Hk NZ S UP UL. unfold t_mstep. match goal with |- context [_ && existsb ?p (seq 0 (t_K t))] => assert (X : existsb p (seq 0 (t_K t)) = false) end.
  { apply Bool.not_true_iff_false. intros X. apply existsb_exists in X. destruct X as (i & Hi & X). apply in_seq in Hi. destruct (Req_EM_T (N i) 0); [|discriminate]. apply (NZ i); [lia|assumption]. }
  rewrite X, Bool.andb_false_r, UL, UP. cbn [andb t_nat]. assert (X3 : existsb (fun k => Rltb (N k) (t_minN t)) (seq 0 (t_K t)) = true). { apply existsb_exists. exists k. split; [apply in_seq; lia|]. unfold Rltb. destruct (Rlt_dec _ _); [reflexivity|contradiction]. } rewrite X3. reflexivity.
Qed.
(** A component without data: neither its mean nor any variance is defined afterwards. *)
Theorem C107_empty_component_refuted t N u k : (k < t_K t)%nat -> N k = 0 -> t_updmu t = true -> t_mstep t N u = Ok None.
Proof.
  intros Hk Z UM. unfold t_mstep. rewrite UM. cbn [orb andb]. match goal with |- context [existsb ?p (seq 0 (t_K t))] => assert (X : existsb p (seq 0 (t_K t)) = true) end.
  { apply existsb_exists. exists k. split; [apply in_seq; lia|]. rewrite Z. destruct (Req_EM_T 0 0); [reflexivity|contradiction]. }
  rewrite X. reflexivity.
Qed.
(** *** Initialisation *)
(** With one component, initialize with data fails unless the data have exactly one dimension. *)
Theorem C107_init_one_refuted d x fl mn up um ul : d <> 1%nat -> t_init_one d x fl mn up um ul = Err AssertionError.
Proof. intros H. unfold t_init_one, validate_lambda. destruct (Nat.eqb_spec 1 d); [congruence|reflexivity]. Qed.
(** Without data it gives the standard Normal distribution. *)
Theorem C107_init_std d fl mn up um ul : exists t, t_init_std d fl mn up um ul = Ok t /\ t_made 1 d t /\ t_K t = 1%nat /\ (forall j, t_mu t 0%nat j = 0 /\ t_L t j = 1) /\ t_pi t 0%nat = 1.
Proof.
  unfold t_init_std, validate_lambda. assert (A : all_pos d (fun _ => 1) = true) by (apply all_pos_ok; intros; lra). rewrite A, Nat.eqb_refl. cbn [assert bind].
  unfold t_new. rewrite A. eexists. split; [reflexivity|]. split; [eapply (tm_new 1 d (fun _ => 1) (fun _ _ => 0) (fun _ => 1) fl mn up um ul); [intros; lra|unfold t_new; rewrite A; reflexivity]|]. repeat split; reflexivity.
Qed.

(** initialize with K > 1: the weights are the fractions of rows in the clusters and add up to one, and the shared variance is the
    average squared distance of the rows to the centres of their clusters *)
Lemma by_cluster K (f : nat * (nat -> R) -> R) l : (forall ir, In ir l -> (fst ir < K)%nat) ->
  sumn K (fun k => Rsum (map f (filter (fun ir : nat * (nat -> R) => (fst ir =? k)%nat) l))) = Rsum (map f l).
Proof.
  induction l as [|[i r] l IH]; intros H.
  - cbn [filter map]. unfold sumn. rewrite Rsum_const. unfold Rsum; cbn [fold_right]. ring.
  - cbn [map].
    transitivity (sumn K (fun k => (if (k =? i)%nat then f (i, r) else 0) + Rsum (map f (filter (fun ir : nat * (nat -> R) => (fst ir =? k)%nat) l)))).
    { apply sumn_ext. intros k Hk. cbn [filter fst]. rewrite (Nat.eqb_sym i k). destruct (k =? i)%nat; [reflexivity|ring]. }
    rewrite sumn_add, (IH (fun ir Q => H ir (or_intror Q))).
    assert (P : forall n, sumn n (fun k => if (k =? i)%nat then f (i, r) else 0) = if (i <? n)%nat then f (i, r) else 0).
    { induction n as [|n IHn]; [reflexivity|]. rewrite sumn_S, IHn.
      destruct (Nat.ltb_spec i n), (Nat.ltb_spec i (S n)), (Nat.eqb_spec n i); try lia; ring. }
    rewrite P. specialize (H (i, r) (or_introl eq_refl)). cbn [fst] in H. apply Nat.ltb_lt in H. rewrite H. reflexivity.
Qed.
Theorem C107_init_clusters K d mu idx x : x <> [] -> List.length idx = List.length x -> (forall i, In i idx -> (i < K)%nat) ->
  let '(pi, L) := t_init_clusters K d mu idx x in
  (forall k, (k < K)%nat -> pi k = INR (count_occ Nat.eq_dec idx k) / INR (List.length x)) /\ sumn K pi = 1 /\
  (forall j, let v := Rsum (map (fun ir : nat * (nat -> R) => (snd ir j - mu (fst ir) j)²) (combine idx x)) / INR (List.length x) in
     0 <= v /\ (v <> 0 -> L j = 1 / v)).
Proof.
  intros NE EL HI. cbn [t_init_clusters]. set (n := INR (List.length x)).
  assert (N0 : 0 < n). { unfold n. apply (lt_INR 0). destruct x; [congruence|simpl; lia]. }
  assert (IN : forall ir, In ir (combine idx x) -> (fst ir < K)%nat). { intros [i r] Q. apply HI. exact (in_combine_l _ _ _ _ Q). }
  split; [|split].
  - intros k _. f_equal. f_equal. clear - EL. revert x EL. induction idx as [|i idx IH]; intros [|r x] EL; try discriminate; [reflexivity|].
    cbn [combine filter fst count_occ]. injection EL as EL. destruct (Nat.eqb_spec i k), (Nat.eq_dec i k); try congruence; cbn [List.length]; rewrite (IH x EL); reflexivity.
  - transitivity (sumn K (fun k => / n * Rsum (map (fun _ => 1) (filter (fun ir : nat * (nat -> R) => (fst ir =? k)%nat) (combine idx x))))).
    { apply sumn_ext. intros k _. rewrite Rsum_const. field. lra. }
    rewrite sumn_mul, by_cluster by exact IN. rewrite Rsum_const, combine_length, EL, Nat.min_id. fold n. field. lra.
  - intros j. cbv zeta.
    assert (EQ : sumn K (fun k => Rsum (map (fun ir : nat * vec => (snd ir j - mu k j) * (snd ir j - mu k j)) (filter (fun ir : nat * vec => (fst ir =? k)%nat) (combine idx x))))
      = Rsum (map (fun ir : nat * (nat -> R) => (snd ir j - mu (fst ir) j)²) (combine idx x))).
    { rewrite <- (by_cluster K _ _ IN). apply sumn_ext. intros k _. apply Rsum_ext. intros ir Q. apply filter_In in Q. destruct Q as [_ Q]. apply Nat.eqb_eq in Q. rewrite Q. reflexivity. }
    split.
    + apply Rmult_le_pos; [|apply Rlt_le, Rinv_0_lt_compat; exact N0]. apply Rsum_nonneg. intros v Q. apply in_map_iff in Q. destruct Q as (ir & <- & _). apply Rle_0_sqr.
    + intros V. rewrite EQ. set (s := Rsum _) in *. assert (S0 : s <> 0) by (intros Z0; apply V; rewrite Z0; field; lra). assert (N1 : n <> 0) by lra. field. auto.
Qed.
Example C107_witness : exists t N u t1 t2, let x := [fun _ : nat => 0; fun _ : nat => 4] in
  t_new 2 1 (fun _ => 1/2) (fun k _ => INR k) (fun _ => 1) 0 0 true true false = Ok t /\ t_made 2 1 t /\ t_estep t x None (Some 1%Z) = Ok (N, u, t1) /\ t_mstep t1 N u = Ok (Some t2) /\ t_made 2 1 t2 /\
  total x None (fun r => ln (t_dens t r)) <= total x None (fun r => ln (t_dens t2 r)).
Proof.
  destruct (C107_new 2 1 (fun _ => 1/2) (fun k _ => INR k) (fun _ => 1) 0 0 true true false ltac:(intros; lra)) as (t & G & REST).
  assert (M : t_made 2 1 t) by (refine (tm_new 2 1 _ _ _ _ _ _ _ _ t _ G); intros; lra).
  assert (FG : t_updmu t = true /\ t_updL t = false /\ t_minN t = 0).
  { clear - G. unfold t_new in G. match type of G with context [if ?b then _ else _] => destruct b end; try discriminate; try (cbn [assert bind] in G); try discriminate; injection G as <-; repeat split; reflexivity. }
  destruct FG as (UM & UL & MN).
  set (x := [fun _ : nat => 0; fun _ : nat => 4]). assert (T : 0 < total x None (fun _ => 1)) by (unfold total, Rsum; simpl; lra).
  assert (BIG : forall k, (k < 2)%nat -> t_minN t < t_count t x None k) by (intros k Hk; rewrite MN; apply (t_count_pos 2 1); [exact M|exact Logic.I|exact Logic.I|exact T|exact Hk]).
  destruct (C107_mstep 2 1 t x None (Some 1%Z) ltac:(lia) M UM Logic.I Logic.I ltac:(discriminate) T ltac:(simpl; lia) BIG ltac:(intros; congruence)) as (N & u & t1 & t2 & E & MS & _).
  destruct (C107_em_increases 2 1 t x None (Some 1%Z) N u t1 t2 ltac:(lia) M UM Logic.I Logic.I ltac:(discriminate) T ltac:(simpl; lia) BIG ltac:(intros; congruence) E MS) as (M2 & Q).
  exists t, N, u, t1, t2. cbv zeta. split; [exact G|]. split; [exact M|]. split; [exact E|]. split; [exact MS|]. split; [exact M2|exact Q].
Qed.
Print Assumptions C107_em_increases.
Print Assumptions C107_mstep_optimal.
Print Assumptions C107_init_clusters.
Print Assumptions C107_untied_eta_refuted.
