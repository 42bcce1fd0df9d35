(** Gaussian calibration (C85). *)
From Coq Require Import ZArith List Bool Reals Lra Lia String.
From Verif Require Import Base MathFns NormalDiagProps GmmDiagProps ScoreNorm ScoreNormProps Calib.
Import ListNotations.
Open Scope list_scope. Open Scope R_scope.

(** ** Specification *)
(** a data set: the scores with their label (1 target, 0 non-target) and weight *)
Definition data := list (R * (Z * R)).
Definition data_of (x : list R) (y : list Z) (w : option (list R)) : data := combine x (combine y (weights x w)).
(** weighted sums over a class *)
Definition csum (D : data) (v : Z) (f : R -> R) : R := Rsum (map (fun p => if Z.eqb (fst (snd p)) v then snd (snd p) * f (fst p) else 0) D).
(** the log likelihood of labelled scores: class 1 with probability prior and density N(mu1, sigma2), class 0 with density N(mu2, sigma2) *)
Definition log_joint (D : data) (mu1 mu2 s2 prior : R) : R :=
  Rsum (map (fun p => snd (snd p) * (if Z.eqb (fst (snd p)) 1 then ln prior + ln (gauss mu1 (1 / s2) (fst p)) else ln (1 - prior) + ln (gauss mu2 (1 / s2) (fst p)))) D).

(** ** Scores *)
(** the calibrated score is the log likelihood ratio, and with the prior it gives the posterior of the target class *)
Theorem C85_llr mu1 mu2 s2 prior x : 0 < s2 ->
  gcal_predict (gcal_make (Some mu1) (Some mu2) (Some s2) prior) x = Ok (map (fun s => Some (ln (gauss mu1 (1 / s2) s) - ln (gauss mu2 (1 / s2) s))) x).
Proof.
  intros S. unfold gcal_predict, gcal_make, scale_bias. cbn [g_sb obind]. unfold odiv. destruct (Req_EM_T s2 0) as [E|_]; [lra|]. cbn [obind]. f_equal.
  apply map_ext. intros s. f_equal. assert (0 < 1 / s2) by (apply Rdiv_lt_0_compat; lra). rewrite !ln_gauss by assumption. unfold Rsqr. field. lra.
Qed.
Lemma gauss_pos m l x : 0 < l -> 0 < gauss m l x.
Proof. intros L. unfold gauss. apply Rmult_lt_0_compat; [|apply exp_pos]. apply sqrt_lt_R0, Rdiv_lt_0_compat; [exact L|exact two_pi_pos]. Qed.
Theorem C85_posterior mu1 mu2 s2 prior s : 0 < s2 -> 0 < prior < 1 -> forall t, gcal_predict (gcal_make (Some mu1) (Some mu2) (Some s2) prior) [s] = Ok [Some t] ->
  / (1 + exp (- (t + ln (prior / (1 - prior))))) = prior * gauss mu1 (1 / s2) s / (prior * gauss mu1 (1 / s2) s + (1 - prior) * gauss mu2 (1 / s2) s).
Proof.
  intros S P t. rewrite C85_llr by exact S. cbn [map]. intros H. injection H as <-. assert (L : 0 < 1 / s2) by (apply Rdiv_lt_0_compat; lra).
  pose proof (gauss_pos mu1 _ s L) as G1. pose proof (gauss_pos mu2 _ s L) as G2.
  set (g1 := gauss mu1 (1 / s2) s) in *. set (g2 := gauss mu2 (1 / s2) s) in *.
  rewrite ln_quot by lra. replace (- (ln g1 - ln g2 + (ln prior - ln (1 - prior)))) with (ln g2 + (ln (1 - prior) + (ln (/ g1) + ln (/ prior)))) by (rewrite !ln_Rinv by lra; ring).
  rewrite !exp_plus, !exp_ln by (try apply Rinv_0_lt_compat; lra). field. repeat split; try lra. assert (0 < prior * g1 + g2 * (1 - prior)) by (apply Rplus_lt_0_compat; apply Rmult_lt_0_compat; lra). nra.
Qed.
(** ** Training *)
Lemma pick_cons {A} (a : A) x b y v : pick (a :: x) (b :: y) v = if Z.eqb b v then a :: pick x y v else pick x y v.
Proof. unfold pick. simpl. destruct (Z.eqb b v); reflexivity. Qed.
Lemma pick_sum x y w v f : List.length y = List.length x -> List.length w = List.length x ->
  Rsum (map (fun p => fst p * f (snd p)) (combine (pick w y v) (pick x y v))) = csum (combine x (combine y w)) v f.
Proof.
  revert y w. induction x as [|a x IH]; intros [|b y] [|c w] L1 L2; try discriminate; [reflexivity|]. rewrite !pick_cons. unfold csum in *. cbn [combine map fst snd].
  destruct (Z.eqb b v); cbn [combine map Rsum fold_right fst snd]; unfold Rsum in *; rewrite <- (IH y w) by (simpl in *; lia); cbn [fold_right]; lra.
Qed.
Lemma pick_len {A B} (x : list A) (w : list B) y v : List.length y = List.length x -> List.length w = List.length x -> List.length (pick w y v) = List.length (pick x y v).
Proof.
  revert y w. induction x as [|a x IH]; intros [|b y] [|c w] L1 L2; try discriminate; [reflexivity|]. rewrite !pick_cons. simpl in L1, L2. destruct (Z.eqb b v); simpl; rewrite (IH y w) by lia; reflexivity.
Qed.
Lemma pick_one {A} (x : list A) (l : list R) y v : List.length y = List.length x -> map (fun _ => 1) (pick x y v) = pick (map (fun _ => 1) x) y v.
Proof. revert y. induction x as [|a x IH]; intros [|b y] L; try discriminate; [reflexivity|]. simpl map at 2. rewrite !pick_cons. simpl in L. destruct (Z.eqb b v); simpl; rewrite (IH y) by lia; reflexivity. Qed.
Lemma csum_lin D v a b f g : csum D v (fun x => a * f x + b * g x) = a * csum D v f + b * csum D v g.
Proof. unfold csum, Rsum. induction D as [|p D IH]; simpl; [ring|]. rewrite IH. destruct (Z.eqb (fst (snd p)) v); ring. Qed.
Lemma csum_ext D v f g : (forall x, f x = g x) -> csum D v f = csum D v g.
Proof. intros E. unfold csum. f_equal. apply map_ext. intros p. rewrite E. reflexivity. Qed.
Lemma csum_pick1 x y w v : List.length y = List.length x -> List.length w = List.length x -> Rsum (pick w y v) = csum (combine x (combine y w)) v (fun _ => 1).
Proof.
  revert y w. induction x as [|a x IH]; intros [|b y] [|c w] L1 L2; try discriminate; [reflexivity|]. rewrite pick_cons. unfold csum in *. cbn [combine map fst snd].
  destruct (Z.eqb b v); cbn [Rsum fold_right]; unfold Rsum in *; cbn [fold_right]; rewrite <- (IH y w) by (simpl in *; lia); lra.
Qed.
Lemma wmean1_ok x y w v : List.length y = List.length x -> List.length w = List.length x -> csum (combine x (combine y w)) v (fun _ => 1) <> 0 ->
  wmean1 (pick x y v) (pick w y v) = Some (csum (combine x (combine y w)) v (fun s => s) / csum (combine x (combine y w)) v (fun _ => 1)).
Proof.
  intros L1 L2 N. unfold wmean1, ScoreNorm.mean. rewrite (pick_sum x y w v (fun s => s)) by assumption. rewrite (csum_pick1 x) by assumption.
  rewrite map_length, combine_length, (pick_len x w) by assumption. rewrite Nat.min_id. set (n := List.length (pick x y v)).
  assert (n <> 0)%nat. { intros E. apply N. rewrite <- (csum_pick1 x) by assumption. assert (E' : List.length (pick w y v) = 0%nat) by (rewrite (pick_len x) by assumption; exact E). destruct (pick w y v); [reflexivity|discriminate]. }
  assert (INR n <> 0) by (apply not_0_INR; assumption). unfold odiv. destruct (Req_EM_T (INR n) 0); [contradiction|]. cbn [obind].
  destruct (Req_EM_T _ 0) as [E|_].
  - exfalso. apply N. apply (Rmult_eq_reg_r (/ INR n)); [unfold Rdiv in E; lra|apply Rinv_neq_0_compat; assumption].
  - f_equal. field. split; assumption.
Qed.
Lemma total_split x y w : List.length y = List.length x -> List.length w = List.length x -> Forall (fun v => v = 0 \/ v = 1)%Z y ->
  Rsum w = csum (combine x (combine y w)) 1 (fun _ => 1) + csum (combine x (combine y w)) 0 (fun _ => 1).
Proof.
  intros L1 L2 Hy. revert x w L1 L2. induction Hy as [|b y Hb Hy IH]; intros [|a x] [|c w] L1 L2; try discriminate; [unfold csum, Rsum; simpl; lra|].
  specialize (IH x w ltac:(simpl in *; lia) ltac:(simpl in *; lia)). unfold csum, Rsum in *. cbn [combine map fold_right fst snd]. rewrite IH. destruct Hb; subst b; simpl; lra.
Qed.
Lemma joint_split D mu1 mu2 s2 p : Forall (fun q => fst (snd q) = 0 \/ fst (snd q) = 1)%Z D ->
  log_joint D mu1 mu2 s2 p = csum D 1 (fun s => ln p + ln (gauss mu1 (1 / s2) s)) + csum D 0 (fun s => ln (1 - p) + ln (gauss mu2 (1 / s2) s)).
Proof.
  intros H. unfold log_joint, csum, Rsum. induction H as [|q D Hq H IH]; simpl; [lra|]. rewrite IH. destruct Hq as [-> | ->]; simpl; lra.
Qed.
Lemma class_lik D v mu s2 c : 0 < s2 -> csum D v (fun s => c + ln (gauss mu (1 / s2) s)) =
  csum D v (fun _ => 1) * (c - 1/2 * ln s2 - 1/2 * ln (2 * PI)) - csum D v (fun s => (s - mu)²) / (2 * s2).
Proof.
  intros S. rewrite (csum_ext D v _ (fun s => (c - 1/2 * ln s2 - 1/2 * ln (2 * PI)) * 1 + (- / (2 * s2)) * (s - mu)²)).
  - rewrite csum_lin. field. lra.
  - intros s. rewrite ln_gauss by (apply Rdiv_lt_0_compat; lra). replace (ln (1 / s2)) with (- ln s2) by (unfold Rdiv; rewrite Rmult_1_l, ln_Rinv by exact S; reflexivity). unfold Rsqr. field. lra.
Qed.
Lemma class_dev D v mu : csum D v (fun _ => 1) <> 0 ->
  let m := csum D v (fun s => s) / csum D v (fun _ => 1) in csum D v (fun s => (s - mu)²) = csum D v (fun s => (s - m)²) + csum D v (fun _ => 1) * (m - mu)².
Proof.
  intros N m. assert (Q : forall c, csum D v (fun s => (s - c)²) = csum D v (fun s => s²) - 2 * c * csum D v (fun s => s) + c² * csum D v (fun _ => 1)).
  { intros c. rewrite (csum_ext D v _ (fun s => 1 * s² + 1 * (- (2 * c) * s + c² * 1))) by (intros; unfold Rsqr; ring). rewrite (csum_lin D v 1 1 (fun s => s²)).
    rewrite (csum_lin D v (- (2 * c)) (c²) (fun s => s)). ring. }
  rewrite !Q. unfold m, Rsqr. field. exact N.
Qed.
Lemma csum_nonneg D v f : Forall (fun q => 0 <= snd (snd q)) D -> (forall s, 0 <= f s) -> 0 <= csum D v f.
Proof. intros H F. unfold csum, Rsum. induction H as [|q D Hq H IH]; simpl; [lra|]. destruct (Z.eqb _ v); [|lra]. pose proof (Rmult_le_pos _ _ Hq (F (fst q))). lra. Qed.
Lemma data_labels x y w : List.length y = List.length x -> List.length w = List.length x -> Forall (fun v => v = 0 \/ v = 1)%Z y -> Forall (fun q : R * (Z * R) => fst (snd q) = 0 \/ fst (snd q) = 1)%Z (combine x (combine y w)).
Proof.
  intros L1 L2 H. revert x w L1 L2. induction H as [|b y Hb H IH]; intros [|a x] [|c w] L1 L2; try discriminate; simpl; constructor; [exact Hb|].
  apply IH; simpl in *; lia.
Qed.
Lemma data_weights x y w : Forall (fun v => 0 <= v) w -> Forall (fun q : R * (Z * R) => 0 <= snd (snd q)) (combine x (combine y w)).
Proof.
  intros H. revert x y. induction H as [|c w Hc H IH]; intros [|a x] [|b y]; simpl; try constructor; [exact Hc|apply IH].
Qed.
(** what training computes: class means, within-class variance and class share of the weight *)
Theorem C85_fit_values x y w : List.length y = List.length x -> NormalDiagProps.fits x w -> Forall (fun v => v = 0 \/ v = 1)%Z y ->
  let D := data_of x y w in 0 < csum D 1 (fun _ => 1) -> 0 < csum D 0 (fun _ => 1) ->
  let n1 := csum D 1 (fun _ => 1) in let n0 := csum D 0 (fun _ => 1) in
  let m1 := csum D 1 (fun s => s) / n1 in let m0 := csum D 0 (fun s => s) / n0 in
  let s2 := (csum D 1 (fun s => (s - m1)²) + csum D 0 (fun s => (s - m0)²)) / (n1 + n0) in
  gcal_fit x y w = Ok (mk_gcal (Some m1) (Some m0) (Some s2) (Some (n1 / (n1 + n0))) (Some (scale_bias (Some m1) (Some m0) (Some s2)))).
Proof.
  intros L F Hy D N1 N0 n1 n0 m1 m0 s2. unfold gcal_fit. rewrite (proj2 (Nat.eqb_eq _ _) L). cbn [negb].
  set (u := weights x w). assert (Lu : List.length u = List.length x). { unfold u, weights. destruct w as [w|]; [exact F|]. apply map_length. }
  assert (XN : (List.length x <> 0)%nat). { intros E. unfold D, data_of in N1. destruct x; [|discriminate]. unfold csum, Rsum in N1. simpl in N1. lra. }
  assert (TS : Rsum u = n1 + n0) by (apply total_split; assumption).
  assert (PU : odiv (Rsum (pick u y 1)) (Rsum u) = Some (n1 / (n1 + n0))).
  { rewrite (csum_pick1 x) by assumption. fold D. rewrite TS. unfold odiv. destruct (Req_EM_T _ 0); [unfold n1, n0 in *; unfold D, data_of in *; lra|]. reflexivity. }
  assert (W1 : wmean1 (pick x y 1) (pick u y 1) = Some m1) by (apply wmean1_ok; try assumption; unfold D, data_of in N1; fold u in N1; lra).
  assert (W0 : wmean1 (pick x y 0) (pick u y 0) = Some m0) by (apply wmean1_ok; try assumption; unfold D, data_of in N0; fold u in N0; lra).
  assert (E : (match w with
    | None => if Nat.eqb (List.length x) 0 then Err ZeroDivisionError
              else Ok (map (fun _ => 1) (pick x y 1), map (fun _ => 1) (pick x y 0), map (fun _ => 1) x, Some (INR (List.length (pick x y 1)) / INR (List.length x)))
    | Some w => Ok (pick w y 1, pick w y 0, w, odiv (Rsum (pick w y 1)) (Rsum w)) end) = Ok (pick u y 1, pick u y 0, u, Some (n1 / (n1 + n0)))).
  { unfold u, weights. destruct w as [w|]; [unfold u, weights in PU; rewrite PU; reflexivity|]. destruct (Nat.eqb_spec (List.length x) 0); [contradiction|].
    rewrite !(pick_one x []) by exact L. f_equal. f_equal. rewrite <- PU. unfold u, weights. rewrite <- (pick_one x []) by exact L.
    assert (O : forall l : list R, Rsum (map (fun _ => 1) l) = INR (List.length l)). { intros l. unfold Rsum. induction l as [|a l IH]; [reflexivity|]. rewrite map_cons. cbn [fold_right List.length]. rewrite S_INR, IH. lra. }
    rewrite !O. unfold odiv. destruct (Req_EM_T (INR (List.length x)) 0) as [Z|_]; [|reflexivity]. exfalso. revert Z. apply not_0_INR. assumption. }
  assert (G : match w with Some w => negb (Nat.eqb (List.length w) (List.length x)) | None => false end = false).
  { destruct w as [w|]; [|reflexivity]. simpl in F. rewrite F, Nat.eqb_refl. reflexivity. }
  rewrite G. cbv zeta. rewrite E. cbn [bind]. rewrite W1, W0. cbn [obind].
  assert (SD : sq_dev m1 (pick x y 1) (pick u y 1) + sq_dev m0 (pick x y 0) (pick u y 0) = csum D 1 (fun s => (s - m1)²) + csum D 0 (fun s => (s - m0)²)).
  { unfold sq_dev. rewrite (pick_sum x y u 1 (fun s => (s - m1)²)), (pick_sum x y u 0 (fun s => (s - m0)²)) by assumption. reflexivity. }
  rewrite SD. assert (IN : INR (List.length x) <> 0) by (apply not_0_INR; assumption).
  assert (NN : n1 + n0 <> 0) by (unfold n1, n0; lra).
  unfold ScoreNorm.mean. rewrite Lu, TS. unfold odiv at 1 2 4 5. destruct (Req_EM_T (INR (List.length x)) 0); [contradiction|]. cbn [obind].
  unfold odiv. destruct (Req_EM_T ((n1 + n0) / INR (List.length x)) 0) as [Z|_].
  { exfalso. apply NN. apply (Rmult_eq_reg_r (/ INR (List.length x))); [unfold Rdiv in Z; lra|apply Rinv_neq_0_compat; assumption]. }
  assert (S2 : (csum D 1 (fun s => (s - m1)²) + csum D 0 (fun s => (s - m0)²)) / INR (List.length x) / ((n1 + n0) / INR (List.length x)) = s2) by (unfold s2; field; split; assumption).
  rewrite S2. reflexivity.
Qed.
(** training maximises the likelihood of the labelled scores over every choice of means, variance and prior *)
Theorem C85_fit x y w : List.length y = List.length x -> NormalDiagProps.fits x w -> pos_weights w -> Forall (fun v => v = 0 \/ v = 1)%Z y ->
  let D := data_of x y w in 0 < csum D 1 (fun _ => 1) -> 0 < csum D 0 (fun _ => 1) ->
  exists mu1 mu2 s2 prior, gcal_fit x y w = Ok (mk_gcal (Some mu1) (Some mu2) (Some s2) (Some prior) (Some (scale_bias (Some mu1) (Some mu2) (Some s2)))) /\
  0 <= s2 /\ 0 < prior < 1 /\
  (0 < s2 -> forall mu1' mu2' s2' prior', 0 < s2' -> 0 < prior' < 1 -> log_joint D mu1' mu2' s2' prior' <= log_joint D mu1 mu2 s2 prior).
Proof.
  intros L F P Hy D N1 N0.
  assert (Lu : List.length (weights x w) = List.length x). { unfold weights. destruct w as [w|]; [exact F|]. apply map_length. }
  assert (DL : Forall (fun q => fst (snd q) = 0 \/ fst (snd q) = 1)%Z D) by (apply data_labels; assumption).
  assert (DW : Forall (fun q : R * (Z * R) => 0 <= snd (snd q)) D).
  { apply data_weights. unfold weights. destruct w as [w|]; [exact P|]. clear. induction x; simpl; constructor; [lra|assumption]. }
  pose proof (C85_fit_values x y w L F Hy N1 N0) as E. cbv zeta in E. fold D in E.
  set (n1 := csum D 1 (fun _ => 1)) in *. set (n0 := csum D 0 (fun _ => 1)) in *. set (m1 := csum D 1 (fun s => s) / n1) in *. set (m0 := csum D 0 (fun s => s) / n0) in *.
  set (V := csum D 1 (fun s => (s - m1)²) + csum D 0 (fun s => (s - m0)²)) in *.
  exists m1, m0, (V / (n1 + n0)), (n1 / (n1 + n0)).
  assert (VP : 0 <= V). { apply Rplus_le_le_0_compat; apply csum_nonneg; try exact DW; intros; apply Rle_0_sqr. }
  assert (PP : 0 < n1 / (n1 + n0) < 1). { split; [apply Rdiv_lt_0_compat; lra|]. apply (Rmult_lt_reg_r (n1 + n0)); [lra|]. unfold Rdiv. rewrite Rmult_assoc, Rinv_l; lra. }
  split; [exact E|]. split; [|split; [exact PP|]].
  - apply Rmult_le_pos; [exact VP|]. left. apply Rinv_0_lt_compat. lra.
  - intros S2 mu1' mu2' s2' p' S2' P'. rewrite !joint_split by exact DL. rewrite !class_lik by assumption.
    assert (D1 := class_dev D 1 mu1' (Rgt_not_eq _ _ N1)). assert (D0 := class_dev D 0 mu2' (Rgt_not_eq _ _ N0)). cbv zeta in D1, D0. fold n1 n0 in D1, D0. fold m1 in D1. fold m0 in D0. rewrite D1, D0.
    fold n1 n0. set (p := n1 / (n1 + n0)) in *. set (s2 := V / (n1 + n0)) in *. set (lp := ln (2 * PI)).
    set (V1 := csum D 1 (fun s => (s - m1)²)) in *. set (V0 := csum D 0 (fun s => (s - m0)²)) in *.
    assert (A1 := ln_le_sub1 (p' / p) ltac:(apply Rdiv_lt_0_compat; lra)). assert (A0 := ln_le_sub1 ((1 - p') / (1 - p)) ltac:(apply Rdiv_lt_0_compat; lra)).
    assert (AS := ln_le_sub1 (s2 / s2') ltac:(apply Rdiv_lt_0_compat; lra)). rewrite ln_quot in A1, A0, AS by lra.
    assert (B1 : n1 * (p' / p - 1) = p' * (n1 + n0) - n1) by (unfold p; field; lra).
    assert (B0 : n0 * ((1 - p') / (1 - p) - 1) = (1 - p') * (n1 + n0) - n0) by (unfold p; field; lra).
    assert (BS : (n1 + n0) * (s2 / s2' - 1) = (V1 + V0) / s2' - (n1 + n0)) by (unfold s2, V; field; lra).
    assert (SV : V1 + V0 = s2 * (n1 + n0)) by (unfold s2, V; field; lra).
    assert (BT : (V1 + V0) / (2 * s2) = (n1 + n0) / 2) by (rewrite SV; field; lra).
    apply (Rmult_le_compat_l n1) in A1; [|lra]. apply (Rmult_le_compat_l n0) in A0; [|lra]. apply (Rmult_le_compat_l (n1 + n0)) in AS; [|lra]. rewrite B1 in A1. rewrite B0 in A0. rewrite BS in AS.
    assert (Q1 : 0 <= n1 * (m1 - mu1')² / (2 * s2')). { apply Rmult_le_pos; [apply Rmult_le_pos; [lra|apply Rle_0_sqr]|left; apply Rinv_0_lt_compat; lra]. }
    assert (Q0 : 0 <= n0 * (m0 - mu2')² / (2 * s2')). { apply Rmult_le_pos; [apply Rmult_le_pos; [lra|apply Rle_0_sqr]|left; apply Rinv_0_lt_compat; lra]. }
    assert (X1 : (V1 + n1 * (m1 - mu1')²) / (2 * s2') + (V0 + n0 * (m0 - mu2')²) / (2 * s2') = (V1 + V0) / s2' / 2 + n1 * (m1 - mu1')² / (2 * s2') + n0 * (m0 - mu2')² / (2 * s2')) by (field; lra).
    assert (X2 : V1 / (2 * s2) + V0 / (2 * s2) = (n1 + n0) / 2) by (rewrite <- BT; field; lra).
    set (Z1 := (V1 + n1 * (m1 - mu1')²) / (2 * s2')) in *. set (Z0 := (V0 + n0 * (m0 - mu2')²) / (2 * s2')) in *. set (Y1 := V1 / (2 * s2)) in *. set (Y0 := V0 / (2 * s2)) in *.
    nra.
Qed.
Lemma one_neq0 : 1 <> 0. Proof. lra. Qed.
Example C85_fit_ex : csum (data_of [0; 2; 10; 12] [0; 0; 1; 1]%Z None) 1 (fun _ => 1) = 2 /\ csum (data_of [0; 2; 10; 12] [0; 0; 1; 1]%Z None) 0 (fun _ => 1) = 2 /\
  exists sb, gcal_fit [0; 2; 10; 12] [0; 0; 1; 1]%Z None = Ok (mk_gcal (Some 11) (Some 1) (Some 1) (Some (1/2)) sb).
Proof.
  assert (A : csum (data_of [0; 2; 10; 12] [0; 0; 1; 1]%Z None) 1 (fun _ => 1) = 2) by (unfold csum, data_of, Rsum; simpl; lra).
  assert (B : csum (data_of [0; 2; 10; 12] [0; 0; 1; 1]%Z None) 0 (fun _ => 1) = 2) by (unfold csum, data_of, Rsum; simpl; lra).
  split; [exact A|]. split; [exact B|].
  assert (F : Forall (fun v => v = 0 \/ v = 1)%Z [0; 0; 1; 1]%Z) by (repeat (constructor; [lia|]); constructor).
  pose proof (C85_fit_values [0; 2; 10; 12] [0; 0; 1; 1]%Z None eq_refl I F) as E. cbv zeta in E. rewrite A, B in E. specialize (E ltac:(lra) ltac:(lra)).
  eexists. rewrite E. clear E.
  assert (A1 : csum (data_of [0; 2; 10; 12] [0; 0; 1; 1]%Z None) 1 (fun s => s) / 2 = 11) by (unfold csum, data_of, Rsum; simpl; lra).
  assert (B1 : csum (data_of [0; 2; 10; 12] [0; 0; 1; 1]%Z None) 0 (fun s => s) / 2 = 1) by (unfold csum, data_of, Rsum; simpl; lra).
  rewrite A1, B1. f_equal. f_equal; f_equal; unfold csum, data_of, Rsum, Rsqr; simpl; lra.
Qed.
(** scores with another label, which take part in neither mean, shrink the variance when no weights are given *)
Theorem C85_other_label_refuted : exists sb, gcal_fit [0; 2; 10; 12; 5] [0; 0; 1; 1; 2]%Z None = Ok (mk_gcal (Some 11) (Some 1) (Some (4/5)) (Some (2/5)) sb).
Proof.
  eexists. unfold gcal_fit, pick, wmean1, sq_dev, ScoreNorm.mean, odiv, Rsum, Rsqr. simpl. unfold odiv.
  repeat match goal with |- context [Req_EM_T ?a 0] => destruct (Req_EM_T a 0) as [E|?]; [exfalso; revert E; lra|]; cbn [obind] end.
  do 2 f_equal; f_equal; field.
Qed.
(** a stored calibration can not be read back: load looks for sigma2 in the configuration, where it is not *)
Theorem C85_load_refuted g : gcal_load (gcal_save g) = Err KeyError.
Proof. reflexivity. Qed.
(** before training (or construction with all parameters) prediction raises *)
Theorem C85_untrained mu1 mu2 s2 prior x : mu1 = None \/ mu2 = None \/ s2 = None -> gcal_predict (gcal_make mu1 mu2 s2 prior) x = Err TypeError.
Proof. intros H. unfold gcal_make, gcal_predict. destruct mu1, mu2, s2; try reflexivity. destruct H as [H|[H|H]]; discriminate. Qed.
Print Assumptions C85_fit. Print Assumptions C85_posterior.
