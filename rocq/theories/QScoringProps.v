(** Q-scoring (C84): the score of an observation and a class is the log likelihood ratio of "the same hidden variable" against "different ones";
    training multiplies the posteriors. *)
From Verif Require Import RingF LinAlg LinAlgProps GaussLa Frplda FrpldaProps FrpldaEm Splda SpldaProps SpldaEm Gbe GbeProps QScoring.
Set Warnings "-notation-overridden,-ambiguous-paths".
From mathcomp Require Import all_ssreflect all_algebra.
Set Implicit Arguments. Unset Strict Implicit. Unset Printing Implicit Defensive.
Import Order.TTheory GRing.Theory Num.Theory.
Local Open Scope ring_scope.

Section P.
Variable F : rcfType.
Add Ring FRing' : (F_ring F). Add Ring FZRing' : (F_zring F). Add Field FField' : (F_field F). Add Field FZField' : (F_zfield F).
Variables (ln expf : F -> F) (c : F).
Notation half := (2%:R^-1 : F).
(** ** Specification *)
(** the log density at y of the Gaussian with mean m and precisions P, independent coordinates; c is log (2 pi) *)
Definition lgd {d} (P m : 'rV[F]_d) (y : 'rV[F]_d) : F := log_gauss ln c (diag_mx P) m y.
(** the standard Gaussian, prior of the hidden variable *)
Definition std {d} (y : 'rV[F]_d) : F := lgd (const_mx 1) 0 y.
Definition pos {d} (P : 'rV[F]_d) : Prop := forall j, 0 < P 0 j.
(** the i-th observation: its mean and its precision *)
Definition obs_mean {n d} (x : 'M[F]_(n, d + d)) (i : 'I_n) : 'rV[F]_d := row i (lsubmx x).
Definition obs_prec {n d} (x : 'M[F]_(n, d + d)) (i : 'I_n) : 'rV[F]_d := \row_j (x i (rshift d j))^-1.

(** ** Lemmas *)
Lemma lgd_sum d (P m y : 'rV[F]_d) : is_log ln -> pos P -> lgd P m y = \sum_j half * (ln (P 0 j) - c - P 0 j * (y 0 j - m 0 j) ^+ 2).
Proof.
move=> LN PP. rewrite /lgd /log_gauss -mulr_sumr. congr (_ * _).
have -> : ln (\det (diag_mx P)) = \sum_j ln (P 0 j) by rewrite det_diag ln_prod.
have -> : form (diag_mx P) (y - m) (y - m) = \sum_j P 0 j * (y 0 j - m 0 j) ^+ 2.
  rewrite /form mxE. apply: eq_bigr => j _. rewrite mul_mx_diag !mxE. have Q : forall a b : F, a * b * a = b * a ^+ 2 by move=> *; rewrite expr2; fr. exact: Q.
rewrite !sumrB sumr_const card_ord. by rewrite mulr_natl.
Qed.

Lemma coord_score (w l m x y lw ll le : F) : w != 0 -> l != 0 -> l + w - 1 != 0 ->
  half * (lw - c - w * (y - m) ^+ 2) + half * (ll - c - l * (y - x) ^+ 2) - half * (0 - c - 1 * (y - 0) ^+ 2) =
  half * (- le + lw + ll + (2%:R * (l * x * (l + w - 1)^-1 * (m * w)) + m * w * (m * w) * ((l + w - 1)^-1 - w^-1) + ((l + w - 1)^-1 - l^-1) * (l * x) ^+ 2)) +
  half * (le - c - (l + w - 1) * (y - (l + w - 1)^-1 * (w * m + l * x)) ^+ 2).
Proof.
move=> W0 L0 E0. have EW : m * w * (m * w) * ((l + w - 1)^-1 - w^-1) = m * w * (m * w) * (l + w - 1)^-1 - m * m * w.
  have Q : forall i v : F, m * w * (m * w) * (i - v) = m * w * (m * w) * i - w * v * (m * m * w) by fr. by rewrite Q mulfV // mul1r.
have EL : ((l + w - 1)^-1 - l^-1) * (l * x) ^+ 2 = (l * x) ^+ 2 * (l + w - 1)^-1 - x * x * l.
  have Q : forall i v : F, (i - v) * (l * x) ^+ 2 = (l * x) ^+ 2 * i - l * v * (x * x * l) by move=> i v; rewrite expr2; fr. by rewrite Q mulfV // mul1r.
rewrite EW EL. have EE : forall a b : F, (l + w - 1) * (a - (l + w - 1)^-1 * b) ^+ 2 = (l + w - 1) * a * a - 2%:R * a * b + b * b * (l + w - 1)^-1.
  move=> a b. have Q : forall e i a b : F, e * (a - i * b) ^+ 2 = e * a * a - 2%:R * a * (e * i * b) + b * (e * i) * (b * i) by move=> e i a' b'; rewrite expr2; fr.
  rewrite Q mulfV //. have Q2 : forall u v : F, u * 1 * v = u * v by fr. by rewrite Q2 mul1r mulrA.
rewrite EE. set i := (l + w - 1)^-1. rewrite !expr2.
have Q : forall w l m x y lw ll le i c : F, half * (lw - c - w * ((y - m) * (y - m))) + half * (ll - c - l * ((y - x) * (y - x))) - half * (0 - c - 1 * ((y - 0) * (y - 0))) =
  half * (- le + lw + ll + (2%:R * (l * x * i * (m * w)) + (m * w * (m * w) * i - m * m * w) + (l * x * (l * x) * i - x * x * l))) +
  half * (le - c - ((l + w - 1) * y * y - 2%:R * y * (w * m + l * x) + (w * m + l * x) * (w * m + l * x) * i)) by ff.
exact: Q.
Qed.
Lemma sub1 d (L W : 'rV[F]_d) j : (L + W - const_mx 1) 0 j = L 0 j + W 0 j - 1. Proof. by rewrite !mxE. Qed.
Lemma const1 d j : (const_mx 1 : 'rV[F]_d) 0 j = 1. Proof. by rewrite mxE. Qed.
Lemma zero0 d j : (0 : 'rV[F]_d) 0 j = 0. Proof. by rewrite mxE. Qed.
Lemma row0 K d (m : 'M[F]_(K, d)) k j : row k m 0 j = m k j. Proof. by rewrite mxE. Qed.
(** ** Scores *)
Theorem C84_score : is_log ln -> forall n K d (o : qgbe F K d) (x : 'M[F]_(n, d + d)) mu W, q_mu o = Some mu -> q_W o = Some W ->
  pos W -> (forall i, pos (obs_prec x i)) -> (forall i, pos (obs_prec x i + W - const_mx 1)) ->
  exists s, q_predict ln expf o x false = ok s /\ forall i k, exists m, forall y,
    lgd W (row k mu) y + lgd (obs_prec x i) (obs_mean x i) y - std y = s i k + lgd (obs_prec x i + W - const_mx 1) m y.
Proof.
move=> LN n K d o x mu W EM EW PW PL PE. rewrite /q_predict EM EW. eexists. split; first by []. move=> i k.
set L := obs_prec x i. set X := obs_mean x i.
exists (\row_j ((L 0 j + W 0 j - 1)^-1 * (W 0 j * mu k j + L 0 j * X 0 j))) => y.
have P1 : pos (const_mx 1 : 'rV[F]_d) by move=> j; rewrite mxE ltr01.
have PLW := PE i. have PLi := PL i. rewrite /std !lgd_sum //. rewrite -big_split /= -sumrB.
have EL : forall j, ((\matrix_(i, j) (rsubmx x i j)^-1) : 'M[F]_(n, d)) i j = L 0 j by move=> j; rewrite !mxE.
have EX : forall j, lsubmx x i j = X 0 j by move=> j; rewrite !mxE.
transitivity (\sum_j (half * (- ln (L 0 j + W 0 j - 1) + ln (W 0 j) + ln (L 0 j) + (2%:R * (L 0 j * X 0 j * (L 0 j + W 0 j - 1)^-1 * (mu k j * W 0 j)) + mu k j * W 0 j * (mu k j * W 0 j) * ((L 0 j + W 0 j - 1)^-1 - (W 0 j)^-1) + ((L 0 j + W 0 j - 1)^-1 - (L 0 j)^-1) * (L 0 j * X 0 j) ^+ 2)) +
  half * (ln (L 0 j + W 0 j - 1) - c - (L 0 j + W 0 j - 1) * (y 0 j - (L 0 j + W 0 j - 1)^-1 * (W 0 j * mu k j + L 0 j * X 0 j)) ^+ 2))).
  apply: eq_bigr => j _. have E0 : L 0 j + W 0 j - 1 != 0 by have := lt0r_neq0 (PE i j); rewrite -/L sub1.
  rewrite -(coord_score _ _ _ _ _ _ (lt0r_neq0 (PW j)) (lt0r_neq0 (PL i j)) E0). by rewrite -/L -/X row0 const1 zero0 (ln_1 LN).
rewrite big_split /=. congr (_ + _); last first.
  apply: eq_bigr => j _. rewrite sub1. congr (_ * (_ - _ * (_ - _) ^+ 2)). rewrite [RHS]mxE. by [].
rewrite -mulr_sumr. rewrite [RHS]mxE. congr (_ * _). rewrite !big_split /= sumrN.

rewrite -mulr_sumr.
set A := \sum_(j < d) ln (L 0 j + W 0 j - 1). set B := \sum_(j < d) L 0 j * X 0 j * (L 0 j + W 0 j - 1)^-1 * (mu k j * W 0 j). set C := \sum_(j < d) ln (W 0 j).
set G := \sum_(j < d) mu k j * W 0 j * (mu k j * W 0 j) * ((L 0 j + W 0 j - 1)^-1 - (W 0 j)^-1). set H := \sum_(j < d) ln (L 0 j).
set J := \sum_(j < d) ((L 0 j + W 0 j - 1)^-1 - (L 0 j)^-1) * (L 0 j * X 0 j) ^+ 2.
transitivity ((- A + 2%:R * B) + (C + G) + (H + J)).
  have Q : forall a b c g h j : F, - a + c + h + (2%:R * b + g + j) = - a + 2%:R * b + (c + g) + (h + j) by fr. exact: Q.
congr (_ + _ + _); rewrite [RHS]mxE; congr (_ + _).
- congr (- _). apply: eq_bigr => j _. by rewrite /L /X !mxE.
- congr (_ * _). rewrite [RHS]mxE. apply: eq_bigr => j _. by rewrite /L /X !mxE.
- rewrite [RHS]mxE. apply: eq_bigr => j _. by rewrite /L /X !mxE.
- apply: eq_bigr => j _. by rewrite /L /X !mxE.
- apply: eq_bigr => j _. by rewrite /L /X !mxE.
Qed.
(** the normalised scores are the posteriors of the classes *)
Theorem C84_posterior : exp_ok ln expf -> forall n K d (o : qgbe F K.+1 d) (x : 'M[F]_(n, d + d)) s, q_predict ln expf o x false = ok s ->
  exists p, q_predict ln expf o x true = ok p /\ forall i k, expf (p i k) = posterior expf (s i) k.
Proof.
move=> EX n K d o x s. rewrite /q_predict. case: (q_mu o) => [mu|//]. case: (q_W o) => [W|//]. set l := \matrix_(i, k) _. move=> [<-].
have [p [E P]] := @softmax_ok F ln expf n K l l EX (fun _ _ _ => erefl). exists (map_mx ln p). split.
  change (Base.bind (softmax expf l) (fun p => ok (map_mx ln p)) = ok (map_mx ln p)). by rewrite E.
move=> i k. rewrite mxE EX.2.2; [exact: (P i k).1|exact: (P i k).2].
Qed.
(** ** Training *)
(** the prior in force: as given, or with the requested weight *)
Lemma coord_post n (p : 'I_n -> F) (l m : 'I_n -> F) (u v y : F) : let prec := 1 + \sum_i p i * (l i - 1) + u in let eta := \sum_i p i * (l i * m i) + v in prec != 0 ->
  - (y * y) + \sum_i p i * (- (l i * (y - m i) ^+ 2) + y * y) - (u * y * y - 2%:R * v * y) =
  - (\sum_i p i * (l i * m i ^+ 2)) + prec^-1 * eta * eta - prec * (y - prec^-1 * eta) ^+ 2.
Proof.
move=> prec eta P0.
have E : prec * (y - prec^-1 * eta) ^+ 2 = prec * y * y - 2%:R * eta * y + prec^-1 * eta * eta.
  have Q : forall e i b : F, e * (y - i * b) ^+ 2 = e * y * y - 2%:R * (e * i * b) * y + (e * i) * (i * b * b) by move=> e i b; rewrite expr2; fr.
  by rewrite Q mulfV // !mul1r.
rewrite E /prec /eta. clear E P0 prec eta. set i := (_)^-1.
have -> : \sum_i p i * (- (l i * (y - m i) ^+ 2) + y * y) = - (\sum_i p i * (l i - 1)) * y * y + 2%:R * (\sum_i p i * (l i * m i)) * y - \sum_i p i * (l i * m i ^+ 2).
  transitivity (\sum_i (- (p i * (l i - 1)) * (y * y) + (p i * (l i * m i)) * (2%:R * y) - p i * (l i * m i ^+ 2))).
    apply: eq_bigr => a _. rewrite !expr2.
    have Q : forall p l m : F, p * (- (l * ((y - m) * (y - m))) + y * y) = - (p * (l - 1)) * (y * y) + (p * (l * m)) * (2%:R * y) - p * (l * (m * m)) by fr. exact: Q.
  rewrite sumrB big_split /= -!mulr_suml sumrN. have Q : forall a b e : F, - a * (y * y) + b * (2%:R * y) - e = - a * y * y + 2%:R * b * y - e by fr. exact: Q.
set a := \sum_i p i * (l i - 1). set b := \sum_i p i * (l i * m i). set e := \sum_i _.
have Q : forall a b e u v y z : F, - (y * y) + (- a * y * y + 2%:R * b * y - e) - (u * y * y - 2%:R * v * y) =
  - e + z - ((1 + a + u) * y * y - 2%:R * (b + v) * y + z) by fr. exact: Q.
Qed.

(** the prior in force *)
Definition prior_of {K d} (cf : qconfig F) (o : qgbe F K d) (pr : option (qprior F K d)) : res (option (qprior F K d)) :=
  if pr is Some p then (let! q := q_load_prior cf o p in ok (Some q)) else ok None.
(** the precision of the posterior of class k: that of the standard Gaussian plus what every observation, and the prior, add to it *)
Definition class_prec {n K d} (pr : option (qprior F K d)) (x : 'M[F]_(n, d + d)) (pt : 'M[F]_(n, K)) (k : 'I_K) : 'rV[F]_d :=
  \row_j (1 + \sum_i pt i k * (obs_prec x i 0 j - 1) + (if pr is Some q then qp_W q 0 j - 1 else 0)).
(** the log density, up to a constant, of the hidden variable of class k given its observations: each one multiplies by its posterior over the
    prior, as many times as its weight says *)
Definition class_log {n K d} (pr : option (qprior F K d)) (x : 'M[F]_(n, d + d)) (pt : 'M[F]_(n, K)) (k : 'I_K) (y : 'rV[F]_d) : F :=
  std y + \sum_i pt i k * (lgd (obs_prec x i) (obs_mean x i) y - std y) + (if pr is Some q then lgd (qp_W q) (row k (qp_mu q)) y - std y else 0).
Theorem C84_fit : is_log ln -> forall n K d (cf : qconfig F) (o : qgbe F K d) pr q (x : 'M[F]_(n, d + d)) p w, let pt := weigh p w in
  prior_of cf o pr = ok q -> (forall i, pos (obs_prec x i)) -> (if q is Some q then pos (qp_W q) else True) ->
  exists o' mu, q_fit cf o pr x p w = ok o' /\ q_mu o' = Some mu /\
    forall k, pos (class_prec q x pt k) -> exists e, forall y, class_log q x pt k y = e + lgd (class_prec q x pt k) (row k mu) y.
Proof.
move=> LN n K d cf o pr q x p w pt EP PL PW. rewrite /q_fit -/(prior_of cf o pr) EP. rewrite /Base.bind -/pt.
set MU := \matrix_(k, j) (_^-1 * _).
have EM : forall k j, MU k j = (class_prec q x pt k 0 j)^-1 * (\sum_i pt i k * (obs_prec x i 0 j * obs_mean x i 0 j) + (if q is Some q then qp_W q 0 j * qp_mu q k j else 0)).
  move=> k j. rewrite mxE. congr (_^-1 * _).
    case: (q) => [r|]; rewrite /class_prec ![(\matrix_(_, _) _) _ _]mxE ?addr0; [congr (_ + _ + _)|congr (_ + _)]; rewrite !mxE; apply: eq_bigr => i _; by rewrite !mxE.
  case: (q) => [r|]; rewrite ?[(\matrix_(_, _) _) k j]mxE ?addr0; [congr (_ + _)|]; rewrite !mxE; apply: eq_bigr => i _; by rewrite !mxE.
clearbody MU.
suff H : forall k, pos (class_prec q x pt k) -> exists e, forall y, class_log q x pt k y = e + lgd (class_prec q x pt k) (row k MU) y.
  by case: (q_post_N cf) => [r|]; eexists; exists MU; split; try reflexivity; split.
move=> k PP. set P := class_prec q x pt k. have P1 : pos (const_mx 1 : 'rV[F]_d) by move=> j; rewrite mxE ltr01.
set u := fun j => if q is Some q then qp_W q 0 j - 1 else 0. set v := fun j => if q is Some q then qp_W q 0 j * qp_mu q k j else 0.
set kp := fun j => if q is Some q then ln (qp_W q 0 j) - qp_W q 0 j * qp_mu q k j ^+ 2 else 0.
set eta := fun j => \sum_i pt i k * (obs_prec x i 0 j * obs_mean x i 0 j) + v j.
exists (\sum_j half * (\sum_i pt i k * ln (obs_prec x i 0 j) - ln (P 0 j) + (- (\sum_i pt i k * (obs_prec x i 0 j * obs_mean x i 0 j ^+ 2)) + (P 0 j)^-1 * eta j * eta j) + kp j)) => y.
have SD : std y = \sum_j half * (0 - c - y 0 j * y 0 j).
  rewrite /std lgd_sum //. apply: eq_bigr => j _. by rewrite const1 zero0 (ln_1 LN) subr0 mul1r expr2.
rewrite /class_log SD [in RHS]lgd_sum // -big_split /=.
have -> : \sum_i pt i k * (lgd (obs_prec x i) (obs_mean x i) y - \sum_j half * (0 - c - y 0 j * y 0 j)) =
  \sum_j \sum_i pt i k * (half * (ln (obs_prec x i 0 j) + (- (obs_prec x i 0 j * (y 0 j - obs_mean x i 0 j) ^+ 2) + y 0 j * y 0 j))).
  rewrite exchange_big /=. apply: eq_bigr => i _. rewrite lgd_sum // -[RHS]mulr_sumr. congr (_ * _). rewrite -sumrB. apply: eq_bigr => j _.
  have Q : forall l a b : F, half * (l - c - a) - half * (0 - c - b) = half * (l + (- a + b)) by fr. exact: Q.
have -> : (if q is Some q then lgd (qp_W q) (row k (qp_mu q)) y - \sum_j half * (0 - c - y 0 j * y 0 j) else 0) = \sum_j half * (kp j - (u j * y 0 j * y 0 j - 2%:R * v j * y 0 j)).
  rewrite /kp /u /v. case: (q) PW => [r PR|_]; last first.
    rewrite big1 // => j _. have Q : forall y : F, half * (0 - (0 * y * y - 2%:R * 0 * y)) = 0 by fr. exact: Q.
  rewrite lgd_sum // -sumrB. apply: eq_bigr => j _. rewrite row0 !expr2.
  have Q : forall l w y m : F, half * (l - c - w * ((y - m) * (y - m))) - half * (0 - c - y * y) = half * (l - w * (m * m) - ((w - 1) * y * y - 2%:R * (w * m) * y)) by fr. exact: Q.
rewrite -!big_split /=. apply: eq_bigr => j _.
have PE : P 0 j = 1 + \sum_i pt i k * (obs_prec x i 0 j - 1) + u j by rewrite /P /class_prec mxE.
have := @coord_post n (fun i => pt i k) (fun i => obs_prec x i 0 j) (fun i => obs_mean x i 0 j) (u j) (v j) (y 0 j). lazy zeta. rewrite -PE -/(eta j) => CO0.
have CO1 := CO0 (lt0r_neq0 (PP j)). rewrite row0 EM -/P -/(v j) -/(eta j).
have -> : \sum_i pt i k * (half * (ln (obs_prec x i 0 j) + (- (obs_prec x i 0 j * (y 0 j - obs_mean x i 0 j) ^+ 2) + y 0 j * y 0 j))) =
  half * (\sum_i pt i k * ln (obs_prec x i 0 j) + \sum_i pt i k * (- (obs_prec x i 0 j * (y 0 j - obs_mean x i 0 j) ^+ 2) + y 0 j * y 0 j)).
  rewrite -big_split mulr_sumr. apply: eq_bigr => i _ /=. have Q : forall p h a b : F, p * (h * (a + b)) = h * (p * a + p * b) by fr. exact: Q.
move: CO1. set A := \sum_i pt i k * (- _ + _). set B := \sum_i pt i k * ln _. set D := u j * _ * _ - _. set G := - (\sum_i _). set H := _^-1 * _ * _. set J := P 0 j * _. move=> CO.
have Q : forall a b yy d kk lp c' : F, half * (0 - c' - yy) + half * (b + a) + half * (kk - d) = half * (b - lp + (- yy + a - d) + kk) + half * (lp - c') by fr.
rewrite (Q A B (y 0 j * y 0 j) D (kp j) (ln (P 0 j)) c) CO. have Q2 : forall b lp s j kk c' : F, half * (b - lp + (s - j) + kk) + half * (lp - c') = half * (b - lp + s + kk) + half * (lp - c' - j) by fr. exact: Q2.
Qed.

(** ** The shared precision *)
(** with balanced classes it is the average of the precisions of the classes; without, the same only if there is no prior and the weights of
    every observation add up to one: the prior does not count (and the weights do not either) *)
Theorem C84_shared : forall n K d (cf : qconfig F) (o : qgbe F K.+1 d) pr q (x : 'M[F]_(n, d + d)) p w o' W, let pt := weigh p w in
  prior_of cf o pr = ok q -> q_post_N cf = None -> q_fit cf o pr x p w = ok o' -> q_W o' = Some W ->
  (q_balance cf -> forall j, K.+1%:R * W 0 j = \sum_k class_prec q x pt k 0 j) /\
  (q_balance cf = false -> (forall i, \sum_k pt i k = 1) ->
     forall j, K.+1%:R * (W 0 j + (if q is Some q then qp_W q 0 j - 1 else 0)) = \sum_k class_prec q x pt k 0 j).
Proof.
move=> n K d cf o pr q x p w o' W pt EP PN. rewrite /q_fit -/(prior_of cf o pr) EP /Base.bind -/pt PN. set pc := (if q is Some _ then _ else _) in |- *.
have PC : forall k j, pc k j = class_prec q x pt k 0 j.
  move=> k j. rewrite /pc. case: (q) => [r|]; rewrite /class_prec ![(\matrix_(_, _) _) _ _]mxE ?addr0; [congr (_ + _ + _)|congr (_ + _)]; rewrite !mxE; apply: eq_bigr => i _; by rewrite !mxE.
clearbody pc. move=> [<-] [<-]. have K0 : K.+1%:R != 0 :> F by rewrite pnatr_eq0.
have MN : forall a b : F, a = b -> K.+1%:R * (1 + a / K.+1%:R) = K.+1%:R + b by move=> a b ->; rewrite mulrDr mulr1 [K.+1%:R * (b / _)]mulrC mulfVK.
split=> [B j|B ROW j]; rewrite B.
- rewrite mxE (MN _ _ erefl) sumrB sumr_const card_ord addrC subrK. apply: eq_bigr => k _. exact: PC.
- rewrite mulrDr mxE (MN _ _ erefl) /class_prec. under [RHS]eq_bigr do rewrite mxE.
  rewrite [RHS]big_split [X in _ = X + _]big_split /= !sumr_const !card_ord mulr_natl. congr (_ + _ + _).
  rewrite exchange_big /=. apply: eq_bigr => i _. by rewrite -mulr_suml ROW mul1r !mxE.
Qed.
(** posteriors no wider than the standard Gaussian, weights that are not negative: the precisions are at least one, and every score is defined *)
Theorem C84_defined : forall n K d (cf : qconfig F) (o : qgbe F K.+1 d) pr q (x : 'M[F]_(n, d + d)) p w o' W, let pt := weigh p w in
  prior_of cf o pr = ok q -> q_post_N cf = None -> q_fit cf o pr x p w = ok o' -> q_W o' = Some W -> q_balance cf ->
  (forall i k, 0 <= pt i k) -> (forall i j, 1 <= obs_prec x i 0 j) -> (if q is Some q then forall j, 1 <= qp_W q 0 j else True) ->
  (forall k j, 1 <= class_prec q x pt k 0 j) /\ (forall j, 1 <= W 0 j) /\ pos W /\
  forall n' (x' : 'M[F]_(n', d + d)) i, pos (obs_prec x' i) -> pos (obs_prec x' i + W - const_mx 1).
Proof.
move=> n K d cf o pr q x p w o' W pt EP PN EF EW B P0 L1 W1.
have C1 : forall k j, 1 <= class_prec q x pt k 0 j.
  move=> k j. rewrite /class_prec mxE. apply: ler_paddr; first by case: (q) W1 => [r H|//]; rewrite subr_ge0.
  rewrite ler_addl. apply: sumr_ge0 => i _. apply: mulr_ge0; [exact: P0|rewrite subr_ge0; exact: L1].
have WW : forall j, 1 <= W 0 j.
  move=> j. have [H _] := C84_shared EP PN EF EW. have K0 : 0 < K.+1%:R :> F by rewrite ltr0n. rewrite -(ler_pmul2l K0) (H B) mulr1.
  have -> : K.+1%:R = \sum_(k < K.+1) 1 :> F by rewrite sumr_const card_ord. apply: ler_sum => k _. exact: C1.
split=> //. split=> //. split; first by move=> j; apply: lt_le_trans (WW j); exact: ltr01.
move=> n' x' i PL j. rewrite sub1 -addrA. apply: ltr_spaddl; first exact: PL. by rewrite subr_ge0.
Qed.
(** a weight for the prior can never be given to a new object *)
Theorem C84_prior_N_refuted : forall n K d (cf : qconfig F) (o : qgbe F K d) pr (x : 'M[F]_(n, d + d)) p w,
  q_W o = None -> q_prior_N cf <> None -> q_fit cf o (Some pr) x p w = err type_error.
Proof. move=> n K d cf o pr x p w EW. rewrite /q_fit /q_load_prior EW. by case: (q_prior_N cf). Qed.
(** and without balance the prior is left out of the shared precision *)
Theorem C84_shared_refuted : forall n K d (cf : qconfig F) (o : qgbe F K.+1 d) pr (x : 'M[F]_(n, d + d)) p w o' W, let pt := weigh p w in
  q_prior_N cf = None -> q_post_N cf = None -> q_balance cf = false -> (forall i, \sum_k pt i k = 1) -> q_fit cf o (Some pr) x p w = ok o' -> q_W o' = Some W ->
  forall j, qp_W pr 0 j != 1 -> K.+1%:R * W 0 j <> \sum_k class_prec (Some pr) x pt k 0 j.
Proof.
move=> n K d cf o pr x p w o' W pt PN PO B ROW EF EW j NE. have EP : prior_of cf o (Some pr) = ok (Some pr) by rewrite /prior_of /q_load_prior PN.
have [_ H] := C84_shared EP PO EF EW. rewrite -(H B ROW j) mulrDr => E. have {}E : K.+1%:R * (qp_W pr 0 j - 1) = 0 by apply: (addrI (K.+1%:R * W 0 j)); rewrite addr0.
move/eqP: E. by rewrite mulf_eq0 pnatr_eq0 /= subr_eq0 (negbTE NE).
Qed.
(** ** Counts: those of the data plus those of the prior in force; post_N overrides them and scales what the data added to the shared precision to
    that count per class *)
Theorem C84_counts : forall n K d (cf : qconfig F) (o : qgbe F K d) pr q (x : 'M[F]_(n, d + d)) p w o', prior_of cf o pr = ok q -> q_fit cf o pr x p w = ok o' ->
  exists N, q_N o' = Some N /\ forall k, N 0 k = if q_post_N cf is Some r then r else \sum_i weigh p w i k + (if q is Some q then qp_N q 0 k else 0).
Proof.
move=> n K d cf o pr q x p w o' EP. rewrite /q_fit -/(prior_of cf o pr) EP. rewrite /Base.bind. case: (q_post_N cf) => [r|] [<-] /=.
  by exists (const_mx r); split=> // k; rewrite mxE.
eexists. split; first reflexivity. move=> k. by case: (q) => [a|]; rewrite !mxE ?addr0.
Qed.
Theorem C84_post_N : forall n K d (cf : qconfig F) (o : qgbe F K.+1 d) pr (x : 'M[F]_(n, d + d)) p w r o1 o0 N0 W1 W0,
  q_post_N cf = Some r -> q_fit cf o pr x p w = ok o1 -> q_fit (QConfig (q_balance cf) (q_prior_N cf) None) o pr x p w = ok o0 ->
  q_N o0 = Some N0 -> q_W o0 = Some W0 -> q_W o1 = Some W1 -> \sum_k N0 0 k != 0 ->
  q_mu o1 = q_mu o0 /\ forall j, (\sum_k N0 0 k) * (W1 0 j - 1) = K.+1%:R * r * (W0 0 j - 1).
Proof.
move=> n K d cf o pr x p w r o1 o0 N0 W1 W0 PN E1 E0 EN EW0 EW1 NZ. move: E1 E0. rewrite /q_fit PN /=.
have -> : (if pr is Some p0 then let! q := q_load_prior (QConfig (q_balance cf) (q_prior_N cf) None) o p0 in ok (Some q) else ok None) =
  (if pr is Some p0 then let! q := q_load_prior cf o p0 in ok (Some q) else ok None) by [].
case: (if pr is Some _ then _ else _) => [q|//]. rewrite /Base.bind. set N := (if q is Some _ then _ else _ : 'rV_ _). set W := (if q_balance cf then _ else _ : 'rV_ _).
move=> [H1] [H0]. move: EN EW0 EW1 NZ. rewrite -H0 -H1 /= => [[<-]] [<-] [<-] NZ. split=> // j. rewrite /rescale /np_mean mxE.
have K0 : K.+1%:R != 0 :> F by rewrite pnatr_eq0.
clearbody N W. move: NZ. set t := \sum_k _. move=> NZ. have Q : forall a b c e : F, a != 0 -> b != 0 -> a * (1 + c / (a / b) * e - 1) = b * c * e by move=> a b c' e A0 B0; fnorm; field; split; apply/eqP. exact: Q.
Qed.
(** prior_N: the prior in force has that count per class, and a precision made from the object that is being trained, not from the prior given *)
Theorem C84_prior_N : forall K d (cf : qconfig F) (o : qgbe F K.+1 d) p q r W, q_prior_N cf = Some r -> q_W o = Some W -> prior_of cf o (Some p) = ok (Some q) -> \sum_k qp_N p 0 k != 0 ->
  qp_mu q = qp_mu p /\ (forall k, qp_N q 0 k = r) /\ forall j, (\sum_k qp_N p 0 k) * (qp_W q 0 j - 1) = K.+1%:R * r * (W 0 j - 1).
Proof.
move=> K d cf o p q r W PN EW. rewrite /prior_of /q_load_prior PN EW /= => [[<-]] NZ /=. split=> //. split=> [k|j]; first by rewrite mxE.
rewrite /rescale /np_mean mxE. have K0 : K.+1%:R != 0 :> F by rewrite pnatr_eq0.
move: NZ. set t := \sum_k _. move=> NZ. have Q : forall a b c e : F, a != 0 -> b != 0 -> a * (1 + c / (a / b) * e - 1) = b * c * e by move=> a b c' e A0 B0; fnorm; field; split; apply/eqP. exact: Q.
Qed.
(** a case: two classes of one observation each, mean 1 and -1, variance 1/2 *)
Definition x2 : 'M[F]_(2, 1 + 1) := row_mx (\matrix_(i, j) (if i == 0 then 1 else -1)) (const_mx half).
Example fit2 : exists o' W, q_fit (QConfig true None None) (QObj None None None : qgbe F 2 1) None x2 1%:M None = ok o' /\ q_W o' = Some W /\ W 0 0 = 2%:R /\ pos (obs_prec x2 0).
Proof.
eexists. eexists. split; first reflexivity. split; first reflexivity.
have L : forall i j, obs_prec x2 i 0 j = 2%:R by move=> i j; rewrite /obs_prec /x2 mxE row_mxEr mxE invrK.
have [H _] := @C84_shared 2 1 1 (QConfig true None None) (QObj None None None) None None x2 1%:M None _ _ erefl erefl erefl erefl.
split; last by move=> j; rewrite L ltr0n.
apply: (@mulfI _ 2%:R); first exact: two_neq0. rewrite (H erefl) !big_ord_recl big_ord0 /class_prec !mxE !big_ord_recl !big_ord0 !L !mxE /= !addr0 !mul1r !mul0r !addr0 !add0r.
have Q : forall a : F, a + (2%:R - a) + (a + (2%:R - a)) = 2%:R * 2%:R by fr. exact: Q.
Qed.
End P.
Print Assumptions C84_score. Print Assumptions C84_fit. Print Assumptions C84_shared. Print Assumptions C84_defined.
