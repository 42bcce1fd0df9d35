(** Training of a mixture of diagonal Normal distributions over any number of epochs (C71: exp_family_mixture.py:60-87). *)
From Coq Require Import Reals Lra Lia Psatz.
From Verif Require Import Base BaseFacts MathFns MathFnsProps ScoreNorm ScoreNormProps NormalDiag NormalDiagProps GmmDiag GmmDiagProps.
Open Scope list_scope. Open Scope R_scope.
Local Open Scope R_scope.

(** the weighted log likelihood of the data under the densities of the object *)
Definition data_lik (K d : nat) (g : gmm) (x : list (nat -> R)) (w : option (list R)) : R := total x w (fun r => ln (mix_dens K d (used g) (g_mu g) (g_L g) r)).

Lemma total_pos_mul {X} (x : list X) w (z f : X -> R) : fits x w -> pos_weights w -> (forall r, In r x -> 0 < z r) -> (forall r, In r x -> 0 <= f r) ->
  0 < total x w f -> 0 < total x w (fun r => z r * f r).
Proof.
  intros F W. unfold total. pose proof (weights_len x w F) as L. assert (P : Forall (fun v => 0 <= v) (weights x w)).
  { destruct w as [w|]; simpl in *; [exact W|]. apply Forall_forall. intros v V. apply in_map_iff in V. destruct V as (? & <- & _). lra. }
  revert L P. generalize (weights x w) as ws. clear F W w. induction x as [|r x IH]; intros [|v ws] L P Z N H; try discriminate L; simpl in *; [lra|].
  injection L as L. inversion_clear P as [|? ? P0 P1]. assert (A : Rsum (map (fun rv : X * R => snd rv * (z (fst rv) * f (fst rv))) (combine x ws)) >= 0).
  { apply Rle_ge, Rsum_nonneg. intros y Y. apply in_map_iff in Y. destruct Y as ([r' v'] & <- & I). simpl. rewrite Forall_forall in P1. pose proof (P1 _ (in_combine_r _ _ _ _ I)). pose proof (in_combine_l _ _ _ _ I) as J.
    specialize (Z r' (or_intror J)). specialize (N r' (or_intror J)). apply Rmult_le_pos; [assumption|]. apply Rmult_le_pos; lra. }
  pose proof (Z r (or_introl eq_refl)) as ZR. pose proof (N r (or_introl eq_refl)) as NR.
  destruct (Rle_lt_dec (v * f r) 0) as [C|C].
  - assert (B : 0 < Rsum (map (fun rv : X * R => snd rv * (z (fst rv) * f (fst rv))) (combine x ws))) by (apply IH; auto; lra).
    assert (0 <= v * (z r * f r)) by (apply Rmult_le_pos; [assumption|apply Rmult_le_pos; lra]). lra.
  - assert (0 < v * (z r * f r)) by (replace (v * (z r * f r)) with (z r * (v * f r)) by ring; apply Rmult_lt_0_compat; assumption). lra.
Qed.
Lemma cvar_pos K d g x w k j : (0 < K)%nat -> GInv K d g -> fits x w -> pos_weights w -> 0 < total x w (fun _ => 1) -> 0 < wvar x w j -> (k < K)%nat -> 0 < cvar K d g x w k j.
Proof.
  intros HK I F W T V Hk. unfold cvar. set (z := resp K d (used g) (g_mu g) (g_L g) k). unfold wvar. set (m := wmean x (reweight x w z) j).
  assert (CP : 0 < total x (reweight x w z) (fun _ => 1)). { rewrite total_reweight by exact F. rewrite (total_ext x w _ z) by (intros; ring). apply (count_pos K d g x w k); assumption. }
  apply Rdiv_lt_0_compat; [|exact CP]. rewrite total_reweight by exact F. apply total_pos_mul; try assumption.
  - intros r _. apply resp_pos; assumption.
  - intros r _. apply Rle_0_sqr.
  - rewrite dev_form by exact T. apply Rmult_lt_0_compat; [exact T|]. pose proof (Rle_0_sqr (wmean x w j - m)). lra.
Qed.
Lemma elbo_same g N u : snd (g_elbo (snd (get_logpi g)) N u) = snd (get_logpi g).
Proof. unfold g_elbo. destruct (get_logpi_facts g) as (_ & _ & _ & _ & _ & _ & _ & _ & _ & _ & _ & _ & _ & _ & _ & E). unfold get_logpi at 1. rewrite E. reflexivity. Qed.

(** With the default min_n = 0 and data of positive total weight, training does not fail for any number of epochs. If the precisions are kept, or
    if they are updated without variance floor and no coordinate of the data is constant, the log likelihood of the data under the trained model
    is at least the one under the initial model, and the reported values (which leave out the entropy of the responsibilities) never exceed it.
    The second list returned holds the reported values divided by the number of rows. *)
Theorem C71_fit K d g x w b n : (0 < K)%nat -> g_made K d g -> g_updmu g = true -> g_minN g = 0 ->
  (g_updL g = true -> g_floor g = 0 /\ forall j, (j < d)%nat -> 0 < wvar x w j) ->
  fits x w -> pos_weights w -> x <> [] -> 0 < total x w (fun _ => 1) -> good_batch b ->
  exists g' es, g_fit n g x w b = Ok (Some (g', es, map (fun e => e / INR (List.length x)) es)) /\ List.length es = n /\ g_made K d g' /\
    data_lik K d g x w <= data_lik K d g' x w /\ Forall (fun e => e <= data_lik K d g' x w) es.
Proof.
  intros HK M UM MN UL F W NE T B. enough (H : exists g' es, g_epochs n g x w b = Ok (Some (g', es)) /\ List.length es = n /\ g_made K d g' /\
    data_lik K d g x w <= data_lik K d g' x w /\ Forall (fun e => e <= data_lik K d g' x w) es).
  { destruct H as (g' & es & E & R). exists g', es. unfold g_fit. rewrite E. split; [reflexivity|exact R]. }
  revert g M UM MN UL. induction n as [|n IH]; intros g M UM MN UL.
  - exists g, []. split; [reflexivity|]. split; [reflexivity|]. split; [exact M|]. split; [lra|constructor].
  - pose proof (g_made_inv K d g M) as I.
    assert (BIG : forall k, (k < K)%nat -> g_minN g < count_of K d g x w k) by (intros k Hk; rewrite MN; apply count_pos; assumption).
    destruct (C71_mstep K d g x w b HK M UM F W NE T B BIG) as (N & u & g1 & g2 & E & MS & _).
    destruct (g_estep_ok K d g x w b HK I F NE B) as (N' & u' & E' & _). rewrite E in E'. injection E' as <- <- EG1.
    destruct (C71_elbo K d g x w b HK M F W NE B) as (N' & u' & g1' & e & g3 & E' & EL & _ & _ & _ & LE). rewrite E in E'. injection E' as <- <- <-.
    assert (G3 : g3 = g1) by (pose proof (elbo_same g N u) as ES; rewrite <- EG1, EL in ES; exact ES). subst g3.
    destruct (C71_em_increases K d g x w b N u g1 g2) as (M2 & U2 & INC); try assumption.
    { intros UL1 k j Hk J fl. destruct (UL UL1) as [FL0 V]. assert (fl = 0) as -> by (unfold fl, vfloor; rewrite FL0; ring).
      destruct I as (_ & _ & I3 & _). specialize (I3 k j Hk J). split; [apply Rlt_le, Rdiv_lt_0_compat; lra|].
      apply Rlt_le_trans with (cvar K d g x w k j); [|apply Rmax_l]. apply cvar_pos; try assumption; [apply (g_made_inv K d g M)|apply V; exact J]. }
    destruct (mstep_facts g1 N u g2 MS) as (_ & _ & _ & _ & _ & _ & _ & _ & _ & _ & G11 & G12 & _ & G14 & G15 & _).
    destruct (get_logpi_facts g) as (_ & _ & _ & _ & _ & _ & _ & _ & _ & F10 & F11 & _ & F13 & F14 & _). rewrite <- EG1 in F10, F11, F13, F14.
    destruct (IH g2 M2) as (g' & es & EE & LN & M' & INC' & FA); [congruence|congruence|intros UL2; rewrite G15, F14 in UL2; destruct (UL UL2) as [FL0 V]; split; [congruence|exact V]|].
    exists g', (e :: es). cbn [g_epochs]. rewrite E. cbn [bind]. rewrite EL. rewrite MS. cbn [bind]. rewrite EE. cbn [bind]. split; [reflexivity|].
    split; [simpl; f_equal; exact LN|]. split; [exact M'|]. unfold data_lik in *. split; [lra|]. constructor; [lra|exact FA].
Qed.
Example C71_fit_witness : exists g, let x := [fun _ : nat => 0; fun _ : nat => 4] in
  g_new 2 1 (fun _ => 1/2) (fun k _ => INR k) (fun _ _ => 1) 0 0 true true true = Ok g /\ g_made 2 1 g /\ g_updmu g = true /\ g_minN g = 0 /\
  (g_updL g = true -> g_floor g = 0 /\ forall j, (j < 1)%nat -> 0 < wvar x None j) /\ 0 < total x None (fun _ => 1).
Proof.
  assert (Q1 : all_pos2 2 1 (fun _ _ => 1) = true) by (apply all_pos2_ok; intros; lra).
  destruct (g_new 2 1 (fun _ => 1/2) (fun k _ => INR k) (fun _ _ => 1) 0 0 true true true) as [g|e] eqn:G; [|unfold g_new in G; rewrite Q1 in G; discriminate].
  assert (M : g_made 2 1 g) by (refine (gm_new 2 1 _ _ _ _ _ _ _ _ g _ G); intros; lra).
  exists g. split; [reflexivity|]. split; [exact M|]. unfold g_new in G. rewrite Q1 in G. cbn [g_nat] in G. injection G as <-. cbn [g_updmu g_minN g_updL g_floor].
  split; [reflexivity|]. split; [reflexivity|]. split; [|unfold total, Rsum; simpl; lra]. intros _. split; [reflexivity|]. intros j J.
  unfold wvar, wmean, total, Rsum, Rsqr. simpl. lra.
Qed.
Print Assumptions C71_fit.
