(** Logistic regression wrappers (C86). *)
From Coq Require Import ZArith List Bool Reals Lra Lia.
From Verif Require Import Base BaseFacts SeqGen SeqGenProofs MathFns MathFnsProps GmmDiagProps Logit.
Import ListNotations.
Open Scope list_scope. Open Scope R_scope.

(** ** Specification *)
(** the decision function of a coefficient row and an intercept, and what training gives when the solver returns them *)
Definition decision (a : list R) (b : R) (x : list R) : R := dotr a x + b.
Definition trained (coef : list (list R)) (int : list R) : solver := fun _ => Ok (coef, int).
Definition sigma (t : R) : R := 1 / (1 + exp (- t)).
(** the weight a class gets in total *)
Definition class_total (ids : list Z) (w : list R) (c : Z) : R := Rsum (map snd (filter (fun p => Z.eqb (fst p) c) (combine ids w))).

(** ** Sample weights *)
Lemma sum_const (v : R) n : Rsum (repeat v n) = INR n * v.
Proof. induction n as [|n IH]; [simpl; lra|]. rewrite S_INR. cbn [repeat]. unfold Rsum in *. cbn [fold_right]. rewrite IH. ring. Qed.
Lemma class_rows (f : Z -> R) ids c : map snd (filter (fun p => Z.eqb (fst p) c) (combine ids (map f ids))) = repeat (f c) (count_of ids c).
Proof.
  unfold count_of. induction ids as [|a ids IH]; [reflexivity|]. simpl. rewrite (Z.eqb_sym c a). destruct (Z.eqb_spec a c); simpl; rewrite IH; [subst; reflexivity|reflexivity].
Qed.
Lemma count_pos ids c : In c ids -> (0 < count_of ids c)%nat.
Proof. intros H. unfold count_of. assert (M : In c (filter (Z.eqb c) ids)) by (apply filter_In; split; [exact H|apply Z.eqb_refl]). destruct (filter (Z.eqb c) ids); [destruct M|simpl; lia]. Qed.
(** every class gets its prior as total weight, whatever the number of its samples, and the samples of a class weigh the same *)
Theorem C86_weights p ids ps w : base_weights p ids = Ok (ps, w) -> List.length w = List.length ids /\
  forall c, In c ids -> class_total ids w c = nth (Z.to_nat c) ps 0 /\
    (match p with PNone => exists m, zmax ids = Ok m /\ nth (Z.to_nat c) ps 0 = 1 / INR (Z.to_nat (m + 1)) | _ => prior_at p c = Ok (nth (Z.to_nat c) ps 0) end) /\
    forall i j u v, nth_error ids i = Some c -> nth_error ids j = Some c -> nth_error w i = Some u -> nth_error w j = Some v -> u = v.
Proof.
  unfold base_weights. destruct (zmax ids) as [m|e] eqn:EM; [|discriminate]. cbn [bind]. destruct (existsb _ ids) eqn:EX; [discriminate|].
  destruct (match p with PNone => _ | _ => _ end) as [ps'|e] eqn:EP; [|discriminate]. cbn [bind]. intros H.
  assert (ps' = ps) by congruence. subst ps'. assert (W : w = map (fun c => nth (Z.to_nat c) ps 0 / INR (count_of ids c)) ids) by congruence. clear H. subst w.
  split; [apply map_length|]. intros c IC. assert (CP := count_pos ids c IC). assert (INR (count_of ids c) <> 0) by (apply not_0_INR; lia).
  assert (C0 : (0 <= c)%Z). { destruct (Z.ltb_spec c 0) as [L|L]; [|exact L]. exfalso. assert (T : existsb (fun c => Z.ltb c 0) ids = true) by (apply existsb_exists; exists c; split; [exact IC|apply Z.ltb_lt; exact L]). congruence. }
  assert (CM : (c <= m)%Z). { destruct (zmax_ok ids m EM) as [_ HM]. apply HM, IC. }
  split; [|split].
  - unfold class_total. rewrite class_rows, sum_const. field. assumption.
  - assert (N : forall j, (j < Z.to_nat (m + 1))%nat -> nth_error (seq 0 (Z.to_nat (m + 1))) j = Some j).
    { intros j J. rewrite (nth_error_nth' _ 0%nat) by (rewrite seq_length; exact J). rewrite seq_nth by exact J. reflexivity. }
    assert (G : mapM (fun i => prior_at p (Z.of_nat i)) (seq 0 (Z.to_nat (m + 1))) = Ok ps -> prior_at p c = Ok (nth (Z.to_nat c) ps 0)).
    { intros H0. apply mapM_ok_iff in H0. assert (forall l q, Forall2 (fun a b => prior_at p (Z.of_nat a) = Ok b) l q -> forall j a, nth_error l j = Some a -> prior_at p (Z.of_nat a) = Ok (nth j q 0)) as FN.
      { clear. intros l q F. induction F as [|a b l q E F IH]; intros [|j] a0 HJ; try discriminate HJ; simpl in HJ; [injection HJ as <-; exact E|apply (IH j a0 HJ)]. }
      specialize (FN _ _ H0 (Z.to_nat c) (Z.to_nat c) (N (Z.to_nat c) ltac:(lia))). rewrite Z2Nat.id in FN by exact C0. exact FN. }
    destruct p; [|exact (G EP)|exact (G EP)]. exists m. split; [reflexivity|]. assert (E : ps = repeat (1 / INR (Z.to_nat (m + 1))) (Z.to_nat (m + 1))) by congruence. rewrite E.
    assert (R0 : forall (v : R) n j, (j < n)%nat -> nth j (repeat v n) 0 = v) by (clear; intros v n; induction n as [|n IH]; intros [|j] J; simpl; try lia; [reflexivity|apply IH; lia]). apply R0. lia.
  - intros i j u v I J U V. rewrite nth_error_map, I in U. rewrite nth_error_map, J in V. simpl in U, V. congruence.
Qed.
Example C86_weights_ex : base_weights (PList [1/4; 3/4]) [0; 1; 0; 0]%Z = Ok ([1/4; 3/4], [1/4/INR 3; 3/4/INR 1; 1/4/INR 3; 1/4/INR 3]).
Proof. reflexivity. Qed.
(** the solver is called once, on the data of the caller, with these weights (times the caller's, if any), and with C = 1/lambda_reg *)
Theorem C86_call sk m x ids sw r : lr_fit sk m x ids sw = Ok r -> exists ps cw w coef int, base_weights (l_priors m) ids = Ok (ps, cw) /\
  List.length w = List.length cw /\
  (forall i v, nth_error w i = Some v -> exists c, nth_error cw i = Some c /\ match sw with None => v = c | Some s => exists u, nth_error s i = Some u /\ v = u * c end) /\
  sk (mk_call (1 / l_lambda m) (l_bias m) (l_scale m) x ids w) = Ok (coef, int) /\ snd r = match sw with Some _ => Some w | None => None end.
Proof.
  unfold lr_fit. destruct (base_weights (l_priors m) ids) as [[ps cw]|e] eqn:E; [|discriminate]. cbn [bind].
  set (W := match sw with None => _ | Some _ => _ end). destruct W as [w|e] eqn:EW; [|discriminate]. cbn [bind].
  destruct (sk _) as [[coef int]|e] eqn:ES; [|discriminate]. cbn [bind]. set (I := if l_ovr m then _ else _). destruct I as [int'|e]; [|discriminate]. cbn [bind]. intros H. injection H as <-.
  exists ps, cw, w, coef, int. split; [reflexivity|]. unfold W in EW. destruct sw as [s|].
  - destruct (Nat.eqb_spec (List.length s) (List.length cw)) as [L|]; [|discriminate]. injection EW as <-. split; [rewrite map_length, combine_length; lia|]. split; [|split; [exact ES|reflexivity]].
    clear - L. intros i v. rewrite nth_error_map. revert cw i L. induction s as [|u s IH]; intros [|c cw] i L; try discriminate; [destruct i; discriminate|].
    destruct i as [|i]; simpl; [|apply IH; simpl in L; lia]. intros H. injection H as <-. exists c. split; [reflexivity|]. exists u. split; reflexivity.
  - injection EW as <-. split; [reflexivity|]. split; [|split; [exact ES|reflexivity]]. intros i v H. exists v. split; [exact H|reflexivity].
Qed.
(** the caller's weights are overwritten *)
Theorem C86_caller_refuted : exists m x ids s s' m', lr_fit (trained [[1]] [0]) m x ids (Some s) = Ok (m', Some s') /\ s' <> s.
Proof.
  exists (bin_make None 1 true None true (1/2)), [[0]; [1]], [0; 1]%Z, [1; 1]. eexists. eexists. split; [unfold lr_fit, base_weights; cbn -[ln INR]; reflexivity|].
  intros H. assert (H1 : 1 * ((1 - 1/2) / INR 1) = 1) by (injection H as H _; exact H). simpl in H1. lra.
Qed.

(** ** Two classes *)
Lemma mapM_step {A B} (f : A -> res B) a l : mapM f (a :: l) = (b <- f a ;; r <- mapM f l ;; Ok (b :: r)).
Proof. reflexivity. Qed.
Lemma badd_one l v : badd l [v] = Ok (map (fun u => u + v) l).
Proof. unfold badd. destruct l as [|a [|b l]]; reflexivity. Qed.
Lemma bin_scores coef b x : Forall (fun r => List.length r = List.length coef) x -> mapM (fun r => mapM (fun a => dotc a r) [coef]) x = Ok (map (fun r => [dotr coef r]) x) /\
  concat (map (fun r => [dotr coef r]) x) = map (dotr coef) x /\ b = b :> R.
Proof.
  intros H. split; [|split; [|reflexivity]].
  - induction H as [|r x Hr H IH]; [reflexivity|]. rewrite mapM_step, IH, !mapM_step. unfold dotc. rewrite Hr, Nat.eqb_refl. reflexivity.
  - clear. induction x as [|r x IH]; [reflexivity|]. simpl. rewrite IH. reflexivity.
Qed.
Lemma sigma_pos t : 0 < sigma t < 1.
Proof. unfold sigma. pose proof (exp_pos (- t)). split; [apply Rdiv_lt_0_compat; lra|]. apply (Rmult_lt_reg_r (1 + exp (- t))); [lra|]. unfold Rdiv. rewrite Rmult_assoc, Rinv_l; lra. Qed.
(** BinaryLogisticRegression with bias_scaling = 1: the posteriors are those of the model that the solver returned, the default scores are
    the log likelihood ratios, that is the posterior log odds less the prior log odds *)
Theorem C86_binary a b lambda use_bias lib prior x ids sw m w' e t : 0 < prior < 1 -> Forall (fun r => List.length r = List.length a) t ->
  lr_fit (trained [a] [b]) (bin_make None lambda use_bias (Some 1) lib prior) x ids sw = Ok (m, w') ->
  bin_predict m e t = Ok (map (fun r => match e with
    | Logits => ln (sigma (decision a b r) / (1 - sigma (decision a b r))) - ln (prior / (1 - prior))
    | LogPost => ln (sigma (decision a b r)) | Post => sigma (decision a b r) end) t).
Proof.
  intros P T. unfold lr_fit. destruct (base_weights _ ids) as [[ps cw]|]; [|discriminate]. cbn [bind]. destruct (match sw with None => _ | Some _ => _ end) as [w|]; [|discriminate]. cbn [bind].
  unfold trained. cbn [bind]. unfold bin_make, lr_make. cbn [l_ovr l_priors l_scale l_lambda l_bias scaling bind]. cbn [prior_at find fst snd Z.eqb bind isub List.length Nat.eqb combine map].
  intros H. injection H as <- _. unfold bin_predict. cbn [l_fit l_scale l_priors]. destruct (bin_scores a b t T) as (S1 & S2 & _). rewrite S1. cbn [bind map]. rewrite S2, badd_one. cbn [bind].
  set (lo := ln (prior / (1 - prior))).
  assert (Q : forall r, dotr a r + (b - lo / 1) * 1 + lo = decision a b r) by (intros r; unfold decision; field).
  destruct e.
  - f_equal. rewrite map_map. apply map_ext. intros r. pose proof (sigma_pos (decision a b r)) as SP. rewrite <- (Q r). set (d := dotr a r + (b - lo / 1) * 1) in *.
    replace (sigma (d + lo) / (1 - sigma (d + lo))) with (exp (d + lo)); [rewrite ln_exp; ring|]. unfold sigma in *. rewrite exp_Ropp in *. pose proof (exp_pos (d + lo)). field. split; [lra|]. split; lra.
  - change (prior_at (PDict [(0%Z, 1 - prior); (1%Z, prior)]) 1) with (@Ok R prior). cbn [bind]. f_equal. rewrite !map_map. apply map_ext. intros r. fold lo. rewrite (Q r). unfold sigma, Rdiv. rewrite Rmult_1_l, ln_Rinv; [reflexivity|]. pose proof (exp_pos (- decision a b r)). lra.
  - change (prior_at (PDict [(0%Z, 1 - prior); (1%Z, prior)]) 1) with (@Ok R prior). cbn [bind]. f_equal. rewrite !map_map. apply map_ext. intros r. fold lo. rewrite (Q r). reflexivity.
Qed.
Example C86_binary_ex : exists m w, lr_fit (trained [[1; 2]] [3]) (bin_make None 1 true (Some 1) true (1/4)) [[0; 0]; [1; 1]] [0; 1]%Z None = Ok (m, w).
Proof. eexists. eexists. unfold lr_fit, base_weights. cbn -[ln]. reflexivity. Qed.
(** another bias_scaling: the intercept of the solver, which includes the scaling already, is scaled again *)
Theorem C86_bias_scaling_refuted : exists a b s x ids m w' r, 0 < s /\ lr_fit (trained [a] [b]) (bin_make None 1 true (Some s) true (1/2)) x ids None = Ok (m, w') /\
  bin_predict m Logits [r] = Ok [2] /\ decision a b r = 1.
Proof.
  exists [0], 1, 2, [[0]; [1]], [0; 1]%Z. eexists. eexists. exists [0]. split; [lra|]. split; [unfold lr_fit, base_weights; cbn -[ln]; reflexivity|]. split.
  - unfold bin_predict. cbn -[ln Rmult Rplus]. unfold dotr. cbn. do 2 f_equal. replace (1/2/(1-1/2)) with 1 by field. rewrite ln_1. field.
  - unfold decision, dotr. cbn. lra.
Qed.
(** the regularisation given to the binary class is not used: the solver is always called with C = 10^5 *)
Theorem C86_lambda_refuted sk lambda lambda' use_bias s lib prior x ids sw : let m := bin_make None lambda use_bias s lib prior in
  lr_fit sk m x ids sw = lr_fit sk (bin_make None lambda' use_bias s lib prior) x ids sw /\
  forall r, lr_fit sk m x ids sw = Ok r -> exists w o, sk (mk_call (10 ^ 5) use_bias (scaling s use_bias lib) x ids w) = Ok o.
Proof.
  intros m. split; [reflexivity|]. intros r H. destruct (C86_call _ _ _ _ _ _ H) as (ps & cw & w & coef & int & _ & _ & _ & E & _). exists w, (coef, int). rewrite <- E.
  unfold m. cbn [bin_make lr_make l_lambda l_bias l_scale]. do 2 f_equal. field.
Qed.

(** the bias scaling that is used when none is given: 100 for the liblinear solver with a bias, 1 otherwise *)
Theorem C86_default_scaling sk lambda use_bias lib p ovr x ids sw r : lr_fit sk (lr_make None lambda use_bias None lib p ovr) x ids sw = Ok r ->
  exists w o s, sk (mk_call (1 / lambda) use_bias s x ids w) = Ok o /\ (use_bias = true -> lib = true -> s = 100) /\ (use_bias = false \/ lib = false -> s = 1).
Proof.
  intros H. destruct (C86_call _ _ _ _ _ _ H) as (ps & cw & w & coef & int & _ & _ & _ & E & _). exists w, (coef, int), (scaling None use_bias lib). split; [rewrite <- E; reflexivity|].
  split; [intros -> ->; reflexivity|]. intros [-> | ->]; [reflexivity|]. destruct use_bias; reflexivity.
Qed.

(** ** Several classes *)
Lemma softmax_add c r : softmax (map (fun v => v + c) r) = softmax r.
Proof. apply C63_softmax_shift. Qed.
Lemma scores_rows coef r : Forall (fun a => List.length a = List.length r) coef -> mapM (fun a => dotc a r) coef = Ok (map (fun a => dotr a r) coef).
Proof. intros H. induction H as [|a coef Ha H IH]; [reflexivity|]. rewrite mapM_step. unfold dotc at 1. rewrite Ha, Nat.eqb_refl. cbn [bind]. rewrite IH. reflexivity. Qed.
Lemma badd_same (a b : list R) : List.length a = List.length b -> badd a b = Ok (map (fun p => fst p + snd p) (combine a b)).
Proof. intros H. unfold badd. rewrite H, Nat.eqb_refl. reflexivity. Qed.
Definition decisions (coef : list (list R)) (int : list R) (r : list R) : list R := map (fun p => decision (fst p) (snd p) r) (combine coef int).
(** multinomial training with a list of priors, one per class, and bias_scaling = 1: the scores are the decision function less the log prior, and the
    posteriors the softmax of the decision function *)
Theorem C86_multinomial coef int lambda use_bias lib l x ids sw m w' t : Forall (fun p => 0 < p) l -> List.length int = List.length l -> List.length coef = List.length l ->
  Forall (fun r => Forall (fun a => List.length a = List.length r) coef) t ->
  lr_fit (trained coef int) (lr_make None lambda use_bias (Some 1) lib (PList l) false) x ids sw = Ok (m, w') ->
  lr_predict m Logits t = Ok (map (fun r => map (fun q => fst q - ln (snd q)) (combine (decisions coef int r) l)) t) /\
  lr_predict m Post t = mapM (fun r => softmax (decisions coef int r)) t /\
  lr_predict m LogPost t = mapM (fun r => s <- softmax (decisions coef int r) ;; Ok (map (fun v => ln (v + / 10 ^ 10)) s)) t.
Proof.
  intros P LI LC T. unfold lr_fit. destruct (base_weights _ ids) as [[ps cw]|]; [|discriminate]. cbn [bind]. destruct (match sw with None => _ | Some _ => _ end) as [w|]; [|discriminate]. cbn [bind].
  unfold trained. cbn [bind]. unfold lr_make. cbn [l_ovr l_priors l_scale l_lambda l_bias scaling bind].
  unfold isub. rewrite map_length, LI, Nat.eqb_refl. cbn [bind].
  intros H. injection H as <- _. unfold lr_predict. cbn [l_fit l_scale l_priors log_priors].
  set (int' := map (fun p => fst p - snd p) (combine int (map (fun p => ln p / 1) l))). set (b' := map (fun b => b * 1) int').
  assert (LB : List.length b' = List.length l) by (unfold b', int'; rewrite !map_length, combine_length, map_length; lia).
  assert (Y : forall r, Forall (fun a => List.length a = List.length r) coef -> badd (map (fun a => dotr a r) coef) b' = Ok (map (fun q => fst q - ln (snd q)) (combine (decisions coef int r) l))).
  { intros r _. rewrite badd_same by (rewrite map_length; lia). f_equal. unfold b', int', decisions. clear - LI LC. revert int l LI LC. induction coef as [|a coef IH]; intros [|b int] [|p l] LI LC; try discriminate; [reflexivity|].
    cbn [map combine fst snd]. rewrite (IH int l) by (simpl in *; lia). f_equal. unfold decision. field. }
  assert (Z : forall r, Forall (fun a => List.length a = List.length r) coef -> badd (map (fun q => fst q - ln (snd q)) (combine (decisions coef int r) l)) (map ln l) = Ok (decisions coef int r)).
  { intros r _. assert (LD : List.length (decisions coef int r) = List.length l) by (unfold decisions; rewrite map_length, combine_length; lia). rewrite badd_same by (rewrite !map_length, combine_length; lia). f_equal.
    revert LD. generalize (decisions coef int r). clear. intros d. revert l. induction d as [|u d IH]; intros [|p l] L; try discriminate; [reflexivity|]. cbn [map combine fst snd]. rewrite IH by (simpl in L; lia). f_equal. ring. }
  split; [|split].
  - induction T as [|r t Hr T IH]; [reflexivity|]. rewrite mapM_step. rewrite IH, (scores_rows _ _ Hr). cbn [bind]. rewrite (Y r Hr). reflexivity.
  - induction T as [|r t Hr T IH]; [reflexivity|]. rewrite mapM_step. rewrite IH, (scores_rows _ _ Hr). cbn [bind]. rewrite (Y r Hr). cbn [bind]. rewrite (Z r Hr). reflexivity.
  - induction T as [|r t Hr T IH]; [reflexivity|]. rewrite mapM_step. rewrite IH, (scores_rows _ _ Hr). cbn [bind]. rewrite (Y r Hr). cbn [bind]. rewrite (Z r Hr). reflexivity.
Qed.
Example C86_multinomial_ex : exists m w, lr_fit (trained [[1]; [2]; [3]] [0; 1; 2]) (lr_make None 1 true (Some 1) false (PList [1/4; 1/4; 1/2]) false) [[0]; [1]; [2]] [0; 1; 2]%Z None = Ok (m, w).
Proof. eexists. eexists. unfold lr_fit, base_weights. cbn -[ln]. reflexivity. Qed.
(** the documented default, no priors, cannot be trained in the default multinomial mode: the solver runs and then the object raises; the same for a
    dictionary, which is the documented type *)
Theorem C86_no_priors_refuted sk m x ids sw : l_ovr m = false -> (forall l, l_priors m <> PList l) -> forall r, lr_fit sk m x ids sw <> Ok r.
Proof.
  intros O P r H. unfold lr_fit in H. destruct (base_weights _ ids) as [[ps cw]|]; [|discriminate]. cbn [bind] in H. destruct (match sw with None => _ | Some _ => _ end) as [w|]; [|discriminate]. cbn [bind] in H.
  destruct (sk _) as [[coef int]|]; [|discriminate]. cbn [bind] in H. rewrite O in H. destruct (l_priors m) as [|l|l]; try discriminate H. exact (P l eq_refl).
Qed.
(** two classes in the multinomial mode, for which scikit-learn returns one intercept: never trained *)
Theorem C86_two_multinomial_refuted sk m x ids sw p q l : l_ovr m = false -> l_priors m = PList (p :: q :: l) -> (forall c coef int, sk c = Ok (coef, int) -> exists b, int = [b]) ->
  forall r, lr_fit sk m x ids sw <> Ok r.
Proof.
  intros O P S r H. unfold lr_fit in H. destruct (base_weights _ ids) as [[ps cw]|]; [|discriminate]. cbn [bind] in H. destruct (match sw with None => _ | Some _ => _ end) as [w|]; [|discriminate]. cbn [bind] in H.
  destruct (sk _) as [[coef int]|] eqn:E; [|discriminate]. destruct (S _ _ _ E) as (b & ->). cbn [bind] in H. rewrite O, P in H. unfold isub in H. cbn [map List.length Nat.eqb bind] in H. discriminate.
Qed.
(** one-against-the-rest training of three or more classes raises when priors are given *)
Theorem C86_ovr_priors_refuted sk m x ids sw : l_ovr m = true -> l_priors m <> PNone -> (forall c coef int, sk c = Ok (coef, int) -> List.length int <> 1%nat) -> forall r, lr_fit sk m x ids sw <> Ok r.
Proof.
  intros O P S r H. unfold lr_fit in H. destruct (base_weights _ ids) as [[ps cw]|]; [|discriminate]. cbn [bind] in H. destruct (match sw with None => _ | Some _ => _ end) as [w|]; [|discriminate]. cbn [bind] in H.
  destruct (sk _) as [[coef int]|] eqn:E; [|discriminate]. specialize (S _ _ _ E). cbn [bind] in H. rewrite O in H. destruct int as [|b [|c int]]; [| |]; destruct (l_priors m); try congruence; try discriminate; simpl in S; lia.
Qed.
(** two classes, one against the rest, without priors: raises *)
Theorem C86_ovr_two_refuted sk m x ids sw : l_ovr m = true -> l_priors m = PNone -> (forall c coef int, sk c = Ok (coef, int) -> exists b, int = [b]) -> forall r, lr_fit sk m x ids sw <> Ok r.
Proof.
  intros O P S r H. unfold lr_fit in H. destruct (base_weights _ ids) as [[ps cw]|]; [|discriminate]. cbn [bind] in H. destruct (match sw with None => _ | Some _ => _ end) as [w|]; [|discriminate]. cbn [bind] in H.
  destruct (sk _) as [[coef int]|] eqn:E; [|discriminate]. destruct (S _ _ _ E) as (b & ->). cbn [bind] in H. rewrite O, P in H. discriminate.
Qed.
(** two classes, one against the rest, with a list of priors: training works, but the posteriors do not depend on the data: they are the priors *)
Theorem C86_ovr_two_post_refuted a b p0 p1 lambda use_bias s lib x ids sw m w' t : 0 < p0 -> 0 < p1 -> p0 + p1 = 1 -> Forall (fun r => List.length a = List.length r) t ->
  lr_fit (trained [a] [b]) (lr_make None lambda use_bias s lib (PList [p0; p1]) true) x ids sw = Ok (m, w') -> lr_predict m Post t = Ok (map (fun _ => [p0; p1]) t).
Proof.
  intros P0 P1 PS T. unfold lr_fit. destruct (base_weights _ ids) as [[ps cw]|]; [|discriminate]. cbn [bind]. destruct (match sw with None => _ | Some _ => _ end) as [w|]; [|discriminate]. cbn [bind].
  unfold trained. cbn [bind]. unfold lr_make. cbn [l_ovr l_priors l_scale l_lambda l_bias bind]. change (prior_at (PList [p0; p1]) 1) with (@Ok R p1). cbn [bind]. unfold isub. cbn [List.length Nat.eqb combine map fst snd bind].
  intros H. injection H as <- _. unfold lr_predict. cbn [l_fit l_scale l_priors log_priors map]. set (b' := (_ * scaling _ _ _)%R). clearbody b'.
  induction T as [|r t Hr T IH]; [reflexivity|]. rewrite mapM_step, IH, !mapM_step. unfold dotc. rewrite Hr, Nat.eqb_refl. cbn [mapM bind]. rewrite badd_one. cbn [bind map]. set (d := (dotr a r + b')%R).
  unfold badd. cbn [List.length Nat.eqb map bind]. replace [d + ln p0; d + ln p1] with (map (fun v => v + d) [ln p0; ln p1]) by (simpl; f_equal; [ring|f_equal; ring]).
  rewrite softmax_add. destruct (C63_softmax [ln p0; ln p1] ltac:(discriminate)) as (q & E & V & _). rewrite E, V. cbn [map bind]. unfold sum_exp. cbn [map]. unfold Rsum. cbn [fold_right].
  rewrite !exp_ln by assumption. do 3 f_equal; [|f_equal]; rewrite Rplus_0_r, PS; field.
Qed.
(** ** Storage: the stored object scores as the original, as long as the scaling is not 0 *)
Theorem C86_binary_reload m m' coef int prior lib lambda use_bias s e t : m = bin_make (Some (coef, int)) lambda use_bias s lib prior -> scaling s use_bias lib <> 0 -> bin_reload m = Ok m' -> bin_predict m' e t = bin_predict m e t.
Proof.
  intros -> S H. unfold bin_reload, bin_make, lr_make in H. cbn [l_fit l_priors l_scale l_bias] in H. change (prior_at (PDict [(0%Z, 1 - prior); (1%Z, prior)]) 1) with (@Ok R prior) in H. cbn [bind] in H. injection H as <-.
  unfold bin_predict, bin_make, lr_make. cbn [l_fit l_scale l_priors scaling].
  assert (E : map (fun b : R => b * scaling s use_bias lib) (map (fun v : R => v / scaling s use_bias lib) (map (fun b : R => b * scaling s use_bias lib) (map (fun v : R => v / scaling s use_bias lib) int))) = map (fun b : R => b * scaling s use_bias lib) (map (fun v : R => v / scaling s use_bias lib) int)).
  { rewrite !map_map. apply map_ext. intros v. field. exact S. }
  rewrite E. reflexivity.
Qed.
Theorem C86_reload m m' coef int l lib lambda use_bias s ovr e t : m = lr_make (Some (coef, int)) lambda use_bias s lib (PList l) ovr -> scaling s use_bias lib <> 0 -> lr_reload m = Ok m' -> lr_predict m' e t = lr_predict m e t.
Proof.
  intros -> S H. unfold lr_reload, lr_make in H. cbn [l_fit l_priors l_scale l_bias] in H. injection H as <-.
  unfold lr_predict, lr_make. cbn [l_fit l_scale l_priors scaling].
  assert (E : map (fun b : R => b * scaling s use_bias lib) (map (fun v : R => v / scaling s use_bias lib) (map (fun b : R => b * scaling s use_bias lib) (map (fun v : R => v / scaling s use_bias lib) int))) = map (fun b : R => b * scaling s use_bias lib) (map (fun v : R => v / scaling s use_bias lib) int)).
  { rewrite !map_map. apply map_ext. intros v. field. exact S. }
  rewrite E. reflexivity.
Qed.
Print Assumptions C86_binary. Print Assumptions C86_multinomial.
