(** C95: mixtures of full-covariance Gaussians (GMM). *)
From Verif Require Import RingF LinAlg LinAlgProps GaussLa SpldaEm FrpldaCex NormalFull NormalFullProps.
Set Warnings "-notation-overridden,-ambiguous-paths".
From mathcomp Require Import all_ssreflect all_algebra.
Set Implicit Arguments. Unset Strict Implicit. Unset Printing Implicit Defensive.
Import Order.TTheory GRing.Theory Num.Theory.
Local Open Scope ring_scope.

Section P.
Variable F : rcfType.
Add Ring FRing' : (F_ring F). Add Ring FZRing' : (F_zring F). Add Field FField' : (F_field F). Add Field FZField' : (F_zfield F).
Variable ln ex : F -> F.
Variable c e15 e20 : F.
Variable svd : forall n, 'M[F]_n -> 'M[F]_n * 'rV[F]_n.

(** ** Specification *)
(** what is used of the exponential *)
Definition exp_ok : Prop := (forall a b, ex (a + b) = ex a * ex b) /\ (forall a, 0 < ex a) /\ (forall a, ln (ex a) = a) /\ (forall t, 0 < t -> ex (ln t) = t).
(** the density of a component and of the mixture; the weights are increased by 1e-15 as in log_pi *)
Definition dens {n} (P : 'M[F]_n) (m x : 'rV[F]_n) : F := ex (log_gauss ln c P m x).
Definition joint {K n} (g : gmm F K n) (x : 'rV[F]_n) (k : 'I_K) : F := (g_pi g k + e15) * dens (g_L g k) (g_mu g k) x.
Definition mix {K n} (g : gmm F K n) (x : 'rV[F]_n) : F := \sum_k joint g x k.
Definition posterior {K n} (g : gmm F K n) (x : 'rV[F]_n) (k : 'I_K) : F := joint g x k / mix g x.
(** a mixture built by the constructor *)
Definition made {K n} (g : gmm F K n) : Prop :=
  (forall k, 0 <= g_pi g k) /\ (forall k, posdef (g_L g k)) /\ mk_gmm ln c (g_pi g) (g_mu g) (g_L g) = ok g.
(** log-likelihood of the data under the mixture *)
Definition mix_lik {m K n} (X : 'M[F]_(m, n)) (w : option 'rV[F]_m) (g : gmm F K n) : F := \sum_i wt w i * ln (mix g (row i X)).

(** ** Loops *)
Lemma mapR_ok K (T : Type) (d : T) (f : 'I_K -> res T) : (forall k, exists v, f k = ok v) -> exists h, mapR d f = ok h /\ forall k, f k = ok (h k).
Proof.
move=> H. rewrite /mapR. have -> : pmap (fun k => err_of (f k)) (enum 'I_K) = [::].
  elim: (enum 'I_K) => //= k s IH. have [v E] := H k. by rewrite E /= IH.
eexists; split; first reflexivity. move=> k. have [v ->] := H k. by [].
Qed.
Lemma mapR_eq K (T : Type) (d : T) (f : 'I_K -> res T) v : (forall k, f k = ok (v k)) -> exists h, mapR d f = ok h /\ h =1 v.
Proof. move=> H. have [|h [E V]] := @mapR_ok K T d f; first by move=> k; exists (v k). exists h. split=> // k. have := V k. rewrite H. by case. Qed.

(** ** Maximum, softmax, logsumexp *)
Lemma foldl_max (s : seq F) a : a <= foldl Num.max a s /\ (forall x, x \in s -> x <= foldl Num.max a s) /\ (foldl Num.max a s = a \/ foldl Num.max a s \in s).
Proof.
elim: s a => [|x s IH] a /=; first by split=> //; split=> //; left. have [A [B C]] := IH (Num.max a x). split.
  apply: le_trans A. by rewrite le_maxr lexx. split.
  move=> y. rewrite inE => /orP [/eqP -> |/B //]. apply: le_trans A. by rewrite le_maxr lexx orbT.
case: C => [->|C]; last by right; rewrite inE C orbT. case: (leP a x) => _; [by right; rewrite inE eqxx|by left].
Qed.
Lemma vmax_ok K (l : 'I_K -> F) : (0 < K)%N -> (forall k, l k <= vmax l) /\ exists k, vmax l = l k.
Proof.
move=> K0. rewrite /vmax. set s := [seq l k | k <- enum 'I_K]. have MS : forall k, l k \in s by move=> k; apply: map_f; rewrite mem_enum.
have [a [t E]] : exists a t, s = a :: t by move: (MS (Ordinal K0)); case: s {MS} => // a t _; exists a, t.
rewrite E /=. have [A [B C]] := foldl_max t a. split.
- move=> k. have := MS k. rewrite E inE => /orP [/eqP -> //|/B //].
- have : foldl Num.max a t \in s by case: C => [->|C]; rewrite E inE ?eqxx // C orbT. by move/mapP => [k _ ->]; exists k.
Qed.
Lemma ex0 : exp_ok -> ex 0 = 1.
Proof. move=> [D [P _]]. have := D 0 0. rewrite addr0 => E. apply: (mulfI (lt0r_neq0 (P 0))). by rewrite -E mulr1. Qed.
Lemma exN a : exp_ok -> ex (- a) = (ex a)^-1.
Proof. move=> E. have [D [P _]] := E. apply: (mulfI (lt0r_neq0 (P a))). by rewrite -D subrr ex0 // mulfV // lt0r_neq0. Qed.
Lemma sum_shift K (l : 'I_K -> F) m : exp_ok -> \sum_j ex (l j - m) = (\sum_j ex (l j)) * ex (- m).
Proof. move=> [D _]. rewrite mulr_suml. apply: eq_bigr => j _. by rewrite D. Qed.
Lemma softmax_ok K (l : 'I_K -> F) k : exp_ok -> softmax ex l k = ex (l k) / \sum_j ex (l j).
Proof.
move=> E. rewrite /softmax sum_shift //. have [D [P _]] := E. rewrite D invfM mulrACA mulfV ?mulr1 // lt0r_neq0 //.
Qed.
Lemma ln_le a b : log_ok ln -> 0 < a -> a <= b -> ln a <= ln b.
Proof.
move=> [L LE] A AB. have B : 0 < b by exact: lt_le_trans AB. have := LE (a / b) (divr_gt0 A B). rewrite L ?invr_gt0 // ln_inv // => H.
rewrite -subr_le0. apply: le_trans H _. by rewrite subr_le0 ler_pdivr_mulr // mul1r.
Qed.
Lemma sum_ex_pos K (l : 'I_K -> F) : exp_ok -> (0 < K)%N -> 0 < \sum_j ex (l j).
Proof. move=> [_ [P _]] K0. rewrite (bigD1 (Ordinal K0)) //=. rewrite ltr_paddr ?sumr_ge0 // => i _. exact: ltW. Qed.
Lemma logsumexp_ok K (l : 'I_K -> F) : log_ok ln -> exp_ok -> (0 < K)%N -> 0 <= e20 ->
  ln (\sum_j ex (l j)) <= logsumexp ln ex e20 l <= ln (\sum_j ex (l j)) + e20.
Proof.
move=> LO E K0 E0. rewrite /logsumexp. have [_ [k VK]] := vmax_ok l K0. set m := vmax l in VK *. set s := \sum_j ex (l j - m).
have SP : 0 < s by exact: sum_ex_pos. have S1 : 1 <= s.
  rewrite /s (bigD1 k) //= VK subrr ex0 // ler_addl sumr_ge0 // => i _. exact: ltW (E.2.1 _).
have LS : ln (\sum_j ex (l j)) = ln s + m.
  rewrite /s sum_shift // LO.1 ?sum_ex_pos ?E.2.1 // E.2.2.1 subrK. by [].
clearbody s. rewrite LS ler_add2r ln_le ?ler_addl //=. have -> : ln s + m + e20 = ln s + e20 + m by rewrite addrAC. rewrite ler_add2r.
have [L LE] := LO. have B : s + e20 <= s * (1 + e20) by rewrite mulrDr mulr1 ler_add2l ler_pemull.
apply: (le_trans (ln_le LO _ B)); first by rewrite ltr_paddr. have P1 : 0 < 1 + e20 by rewrite ltr_paddr ?ltr01. rewrite (L _ _ SP P1) ler_add2l. have := LE (1 + e20). rewrite addrAC subrr add0r. by apply.
Qed.

(** ** Density *)
Lemma made_parts K n (g : gmm F K n) : is_log ln -> made g -> forall k, g_eta g k = compute_eta (g_mu g k) (g_L g k) /\
  g_A g k = 2%:R^-1 * n%:R * c + - (2%:R^-1 * ln (\det (g_L g k))) + 2%:R^-1 * form (g_L g k) (g_mu g k) (g_mu g k).
Proof.
move=> LG [_ [D]]. rewrite /mk_gmm.
have [|h [-> V]] := @mapR_eq K F 0 (fun k => A_nat ln c n (compute_eta (g_mu g k) (g_L g k))) (fun k => 2%:R^-1 * n%:R * c + - (2%:R^-1 * ln (\det (g_L g k))) + 2%:R^-1 * form (g_L g k) (g_mu g k) (g_mu g k)).
  move=> k. have [_ [-> _]] := C94_parameters c LG (g_mu g k) (D k). by rewrite /A_std ((C73_logdet LG (D k).1).1 (D k)).2.
rewrite /=. case: g D V => pi mu L eta A /= D V [<- <-] k. by [].
Qed.
Lemma mk_ok K n pi (mu : 'I_K -> 'rV[F]_n) L : is_log ln -> (forall k, 0 <= pi k) -> (forall k, posdef (L k)) ->
  exists g, mk_gmm ln c pi mu L = ok g /\ g_pi g = pi /\ g_mu g = mu /\ g_L g = L /\ made g.
Proof.
move=> LG PI D. rewrite /made /mk_gmm. have [|h [HM V]] := @mapR_ok K F 0 (fun k => A_nat ln c n (compute_eta (mu k) (L k))).
  move=> k. have [_ [-> _]] := C94_parameters c LG (mu k) (D k). rewrite /A_std ((C73_logdet LG (D k).1).1 (D k)).2. by eexists.
eexists. split; first by rewrite HM. do 3 (split=> //). split=> //. split=> //=. by rewrite HM.
Qed.
Lemma logr_ok K n (g : gmm F K n) x k : is_log ln -> made g -> logr ln e15 g x k = log_gauss ln c (g_L g k) (g_mu g k) x + ln (g_pi g k + e15).
Proof. move=> LG M. have [E1 E2] := made_parts LG M k. by rewrite /logr E1 E2 log_prob_nat_ok ?(M.2.1 k).1. Qed.
Lemma ex_logr K n (g : gmm F K n) x k : is_log ln -> exp_ok -> 0 < e15 -> made g -> ex (logr ln e15 g x k) = joint g x k.
Proof. move=> LG E E0 M. rewrite logr_ok // E.1 E.2.2.2 1?mulrC //. by rewrite ltr_paddl ?M.1. Qed.
Lemma joint_pos K n (g : gmm F K n) x k : exp_ok -> 0 < e15 -> made g -> 0 < joint g x k.
Proof. move=> E E0 M. rewrite mulr_gt0 ?E.2.1 // ltr_paddl ?M.1 //. Qed.
Lemma mix_pos K n (g : gmm F K n) x : exp_ok -> 0 < e15 -> (0 < K)%N -> made g -> 0 < mix g x.
Proof. move=> E E0 K0 M. rewrite /mix (bigD1 (Ordinal K0)) //= ltr_paddr ?joint_pos ?sumr_ge0 // => i _. apply: ltW. exact: joint_pos. Qed.
(** The constructor accepts positive definite precisions; log_prob, from natural or standard parameters, is the logarithm of the mixture
    density, to within 1e-20, and the responsibilities are the posterior probabilities of the components. *)
Theorem C95_density : log_ok ln -> exp_ok -> 0 < e15 -> 0 <= e20 -> forall K n (pi : 'I_K -> F) (mu : 'I_K -> 'rV[F]_n) (L : 'I_K -> 'M[F]_n),
  (0 < K)%N -> (forall k, 0 <= pi k) -> (forall k, posdef (L k)) ->
  exists g, mk_gmm ln c pi mu L = ok g /\ g_pi g = pi /\ g_mu g = mu /\ g_L g = L /\
    forall x, exists v, g_log_prob_nat ln ex e15 e20 g x = v /\ g_log_prob_std ln ex c e15 e20 g x = ok v /\
      ln (\sum_k (pi k + e15) * dens (L k) (mu k) x) <= v <= ln (\sum_k (pi k + e15) * dens (L k) (mu k) x) + e20 /\
      forall k, compute_pz ln ex e15 g x k = (pi k + e15) * dens (L k) (mu k) x / \sum_j (pi j + e15) * dens (L j) (mu j) x.
Proof.
move=> LO E E0 E1 K n pi mu L K0 PI D. have LG := LO.1. have [g [MK [EP [EM [EL M]]]]] := mk_ok mu LG PI D. exists g. do 4 (split=> //). move=> x. eexists. split; first reflexivity.
have SE : \sum_j ex (logr ln e15 g x j) = \sum_k (pi k + e15) * dens (L k) (mu k) x by apply: eq_bigr => j _; rewrite ex_logr // /joint EP EM EL. split.
- rewrite /g_log_prob_std. have [|h [-> V]] := @mapR_eq K F 0 (fun k => let! p := invert_pdmat ln (g_L g k) false in
    let y := (x - g_mu g k) *m (p_chol p)^T in ok (log_pi ln e15 g k + 2%:R^-1 * p_logdet p - 2%:R^-1 * n%:R * c - 2%:R^-1 * \sum_j (y 0 j) ^+ 2)) (logr ln e15 g x).
    move=> k. have Dk := M.2.1 k. have [_ /(_ Dk) [p [-> [_ [_ [_ [LD CH]]]]]]] := C73_invert_pdmat LG false Dk.1. rewrite /=. congr ok.
    have [_ [_ G]] := (C73_cholesky Dk.1).2.2 _ CH. rewrite -form_sq trmxK G LD logr_ok // /log_gauss /log_pi.
    have R1 : forall a l k c f : F, a + 2%:R^-1 * l - 2%:R^-1 * k * c - 2%:R^-1 * f = 2%:R^-1 * (l - k * c - f) + a by fr. exact: R1.
  rewrite /=. congr ok. rewrite /g_log_prob_nat /logsumexp. have VE : vmax h = vmax (logr ln e15 g x) by rewrite /vmax (eq_map V).
  rewrite VE. congr (ln (_ + _) + _). apply: eq_bigr => j _. by rewrite V.
- split; first by rewrite -SE; exact: logsumexp_ok. move=> k. rewrite /compute_pz softmax_ok // SE ex_logr // /joint EP EM EL. by [].
Qed.
Lemma pz_ok K n (g : gmm F K n) x k : is_log ln -> exp_ok -> 0 < e15 -> made g -> compute_pz ln ex e15 g x k = posterior g x k.
Proof. move=> LG E E0 M. rewrite /compute_pz softmax_ok // ex_logr // /posterior /mix. congr (_ / _). apply: eq_bigr => j _. exact: ex_logr. Qed.

(** ** Statistics *)
(** the weights of the samples for component k *)
Definition rw {m K n} (g : gmm F K n) (X : 'M[F]_(m, n)) (w : option 'rV[F]_m) (k : 'I_K) : option 'rV[F]_m := Some (\row_i (posterior g (row i X) k * wt w i)).
Lemma estep_k m K n (g : gmm F K n) (X : 'M[F]_(m, n)) w k : is_log ln -> exp_ok -> 0 < e15 -> made g ->
  ((estep ln ex e15 g X w).1 k, (estep ln ex e15 g X w).2 k) = accum X (rw g X w k).
Proof.
move=> LG E E0 M. rewrite (C94_stats X (rw g X w k)).2 /estep /=.
have W : forall i, (if w is Some w0 then compute_pz ln ex e15 g (row i X) k * w0 0 i else compute_pz ln ex e15 g (row i X) k) = wt (rw g X w k) i.
  move=> i. rewrite /rw /= mxE pz_ok //. case: (w) => [w0|] //=. by rewrite mulr1.
congr pair; first by rewrite /weight; apply: eq_bigr => i _.
rewrite /sum_stats. apply: eq_mkseq => j. by apply: eq_bigr => i _; rewrite W.
Qed.
(** Processing the data in batches: the statistics of the parts add up to those of the whole. *)
Theorem C95_batches : forall m1 m2 K n (g : gmm F K n) (X1 : 'M[F]_(m1, n)) (X2 : 'M[F]_(m2, n)) (w1 : 'rV[F]_m1) (w2 : 'rV[F]_m2) k,
  let whole := estep ln ex e15 g (col_mx X1 X2) (Some (row_mx w1 w2)) in
  let parts := add_stats (estep ln ex e15 g X1 (Some w1)) (estep ln ex e15 g X2 (Some w2)) in
  let whole' := estep ln ex e15 g (col_mx X1 X2) None in
  let parts' := add_stats (estep ln ex e15 g X1 None) (estep ln ex e15 g X2 None) in
  whole.1 k = parts.1 k /\ whole.2 k = parts.2 k /\ whole'.1 k = parts'.1 k /\ whole'.2 k = parts'.2 k.
Proof.
move=> m1 m2 K n g X1 X2 w1 w2 k /=.
have RU : forall i, row (lshift m2 i) (col_mx X1 X2) = row i X1 by move=> i; rewrite rowKu.
have RD : forall i, row (rshift m1 i) (col_mx X1 X2) = row i X2 by move=> i; rewrite rowKd.
have Z : forall D (f h : nat -> F), [seq p.1 + p.2 | p <- zip (mkseq f D) (mkseq h D)] = mkseq (fun j => f j + h j) D.
  move=> D f h. rewrite /mkseq zip_map -map_comp. by apply: eq_map.
rewrite /sum_stats !Z. split; [|split; [|split]].
- rewrite big_split_ord /=. by congr (_ + _); apply: eq_bigr => i _; rewrite ?RU ?RD ?row_mxEl ?row_mxEr.
- apply: eq_mkseq => j. rewrite big_split_ord /=. by congr (_ + _); apply: eq_bigr => i _; rewrite ?RU ?RD ?row_mxEl ?row_mxEr.
- rewrite big_split_ord /=. by congr (_ + _); apply: eq_bigr => i _; rewrite ?RU ?RD.
- apply: eq_mkseq => j. rewrite big_split_ord /=. by congr (_ + _); apply: eq_bigr => i _; rewrite ?RU ?RD.
Qed.

(** ** Re-estimation *)
Lemma floor_slack n (C S u : 'M[F]_n) d (X := C^T *m ((u *m diag_mx (floor1 d)) *m u^T *m C)) (Fl := C^T *m C) P : C \in unitmx -> possemi S ->
  is_svd ((invmx C)^T *m S *m invmx C) (u, d) -> P^T = P -> possemi (invmx Fl - P) ->
  invmx X *m (X - S) = invmx Fl *m (X - S) /\ 0 <= \tr ((invmx Fl - P) *m (X - S)).
Proof.
move=> UC PS SV SP PF. have [DX _] := floor_core UC PS SV. rewrite -/X in DX.
set T := (invmx C)^T *m S *m invmx C in SV. have PT : possemi T by exact: congr_semi.
have TE := svd_psd PT SV. case: (SV) => v [/= UU [_ [_ DP]]]. rewrite /= in TE. set G := u *m diag_mx (floor1 d) *m u^T.
have CT : C^T *m (invmx C)^T = 1%:M by rewrite -trmx_mul mulVmx // trmx1.
have SE : S = C^T *m T *m C by rewrite /T !mulmxA CT mul1mx -mulmxA mulVmx // mulmx1.
have UU' : u *m u^T = 1%:M by exact: orth_tr.
have ID : 1%:M = u *m diag_mx (const_mx 1) *m u^T by rewrite diag_const_mx mulmx1.
have X1 : X - Fl = C^T *m (G - 1%:M) *m C by rewrite /X /Fl -/G mulmxBr mulmxBl mulmx1 mulmxA.
have X2 : X - S = C^T *m (G - T) *m C by rewrite {1}SE /X -/G mulmxBr mulmxBl mulmxA.
have UF : Fl \in unitmx by rewrite unitmx_mul unitmx_tr UC.
have IF : invmx Fl = invmx C *m (invmx C)^T.
  rewrite -[RHS](mulKmx UF). rewrite /Fl. have -> : C^T *m C *m (invmx C *m (invmx C)^T) = 1%:M by rewrite !mulmxA -[C^T *m C *m _]mulmxA mulmxV // mulmx1 CT. by rewrite mulmx1.
have Z : (X - Fl) *m invmx Fl *m (X - S) = 0.
  rewrite X1 X2 IF. have -> : C^T *m (G - 1%:M) *m C *m (invmx C *m (invmx C)^T) *m (C^T *m (G - T) *m C) = C^T *m ((G - 1%:M) *m (G - T)) *m C.
    have CC : (invmx C)^T *m C^T = 1%:M by rewrite -trmx_mul mulmxV // trmx1.
    by rewrite !mulmxA -[_ *m C *m invmx C]mulmxA mulmxV // mulmx1 -[_ *m (invmx C)^T *m C^T]mulmxA CC mulmx1.
  have -> : (G - 1%:M) *m (G - T) = 0.
    rewrite ID TE !diag_sub. set a := floor1 d - const_mx 1. set b := floor1 d - d.
    have -> : u *m diag_mx a *m u^T *m (u *m diag_mx b *m u^T) = u *m (diag_mx a *m diag_mx b) *m u^T by rewrite !mulmxA -[_ *m u^T *m u]mulmxA UU mulmx1.
    have -> : diag_mx a *m diag_mx b = 0.
      have AB : forall i, a 0 i * b 0 i = 0.
        move=> i. have -> : a 0 i = Num.max (d 0 i) 1 - 1 by rewrite !mxE. have -> : b 0 i = Num.max (d 0 i) 1 - d 0 i by rewrite !mxE.
        case: (leP (d 0 i) 1) => _; by rewrite subrr ?mul0r ?mulr0.
      rewrite mulmx_diag. apply/matrixP => i j. rewrite [LHS]mxE [X in X *+ _]mxE AB [RHS]mxE. by rewrite mul0rn.
    by rewrite mulmx0 mul0mx.
  by rewrite mulmx0 mul0mx.
have UX := posdef_unit DX. split.
- rewrite -[RHS](mulKmx UX). congr (_ *m _). move: Z. rewrite mulmxBl mulmxBl mulmxV // mul1mx. move/eqP. rewrite subr_eq0 => /eqP E. by rewrite mulmxA E.
- rewrite X2 TE diag_sub. set b := floor1 d - d. set Q := invmx Fl - P in PF *. have -> : C^T *m (u *m diag_mx b *m u^T) *m C = (u^T *m C)^T *m diag_mx b *m (u^T *m C) by rewrite trmx_mul trmxK !mulmxA.
  set M := u^T *m C. clearbody M. rewrite !mulmxA mxtrace_mulC !mulmxA. rewrite /mxtrace. apply: sumr_ge0 => j _. rewrite mul_mx_diag mxE. apply: mulr_ge0; last by rewrite !mxE subr_ge0 le_maxr lexx.
  have -> : (M *m Q *m M^T) j j = form Q (row j M) (row j M) by rewrite /form -row_mul [LHS]mxE [RHS]mxE; apply: eq_bigr => k _; rewrite [row _ _ _ _]mxE [M^T _ _]mxE [_^T _ _]mxE [row _ _ _ _]mxE.
  exact: PF.2.
Qed.

Lemma floor_call n (S R : 'M[F]_n) : (forall T : 'M[F]_n, is_svd T (svd T)) -> possemi S -> upper R -> (forall i, R i i != 0) ->
  exists X, fullcov_varfloor (@svd n) S R true false = ok X /\ is_floored S (R^T *m R) X /\
    forall P, P^T = P -> possemi (invmx (R^T *m R) - P) -> invmx X *m (X - S) = invmx (R^T *m R) *m (X - S) /\ 0 <= \tr ((invmx (R^T *m R) - P) *m (X - S)).
Proof.
move=> SV PS U NZ. have [E UC] := tri_inv_up U NZ. have -> : fullcov_varfloor (@svd n) S R true false = (let! ic := tri_inv R false false in let: (u, d) := svd (ic^T *m S *m ic) in let T := (u *m diag_mx (floor1 d)) *m u^T in ok (R^T *m (T *m R))) by [].
rewrite E /=. have := SV ((invmx R)^T *m S *m invmx R). case: (svd _) => u d SD.
eexists; split; first reflexivity. split; first exact: floor_core. move=> P SP PF. exact: (floor_slack UC PS SD SP PF).
Qed.
(** the floored covariance is the best one among those at or above the floor *)
Lemma floored_ml n (S Fl X P : 'M[F]_n) : log_ok ln -> posdef X -> posdef P -> possemi S ->
  (possemi (S - Fl) -> X = S) -> (possemi (invmx Fl - P) -> invmx X *m (X - S) = invmx Fl *m (X - S) /\ 0 <= \tr ((invmx Fl - P) *m (X - S))) ->
  possemi (S - Fl) \/ possemi (invmx Fl - P) -> ln (\det P) - \tr (P *m S) <= ln (\det (invmx X)) - \tr (invmx X *m S).
Proof.
move=> LO DX DP PS H1 H2. have UX := posdef_unit DX. have ML := ml_lemma LO DP DX. case=> [/H1 E|/H2 [E1 E2]].
- rewrite -E. by rewrite mulVmx // mxtrace1.
- have ES : S = X - (X - S) by rewrite opprB addrC subrK. have T1 : \tr (P *m S) = \tr (P *m X) - \tr (P *m (X - S)) by rewrite {1}ES mulmxBr raddfB.
  have T2 : \tr (invmx X *m S) = n%:R - \tr (invmx Fl *m (X - S)) by rewrite {1}ES mulmxBr raddfB /= mulVmx // mxtrace1 E1.
  rewrite T1 T2. move: E2. rewrite mulmxBl raddfB /= subr_ge0 => E2. set a := ln _ in ML *. set b := ln _ in ML *. 
  have R1 : forall a t p : F, a - (t - p) = (a - t) + p by fr. rewrite R1 R1. exact: ler_add.
Qed.
Lemma rw_wt m K n (g : gmm F K n) (X : 'M[F]_(m, n)) w k i : wt (rw g X w k) i = posterior g (row i X) k * wt w i. Proof. by rewrite /rw /= mxE. Qed.
Lemma post_pos K n (g : gmm F K n) x k : exp_ok -> 0 < e15 -> (0 < K)%N -> made g -> 0 < posterior g x k.
Proof. move=> E E0 K0 M. by rewrite divr_gt0 ?joint_pos ?mix_pos. Qed.
Lemma rw_pos m K n (g : gmm F K n) (X : 'M[F]_(m, n)) w k : exp_ok -> 0 < e15 -> (0 < K)%N -> made g -> (forall i, 0 <= wt w i) -> 0 < weight w ->
  (forall i, 0 <= wt (rw g X w k) i) /\ 0 < weight (rw g X w k).
Proof.
move=> E E0 K0 M W0 WP. have PP := fun i => post_pos (row i X) k E E0 K0 M. have N0 : forall i, 0 <= wt (rw g X w k) i by move=> i; rewrite rw_wt mulr_ge0 // ltW.
split=> //. rewrite lt_def sumr_ge0 // andbT. apply/eqP => Z. move: WP. rewrite /weight big1 ?ltxx // => i _. have ZZ : wt (rw g X w k) i = 0 by apply: (psumr_eq0P (fun i _ => N0 i) Z). move: ZZ. rewrite rw_wt => /eqP. by rewrite mulf_eq0 gt_eqF //= => /eqP.
Qed.
(** The re-estimated means are the posterior-weighted means of the data; the covariances are the posterior-weighted covariances, floored by
    var_floor times their average; the mixture weights stay as they are; a floor that is not positive definite is refused. *)
Theorem C95_mstep : log_ok ln -> exp_ok -> 0 < e15 ->
  forall m K n (X : 'M[F]_(m, n)) w (g : gmm F K n) vf, (forall T : 'M[F]_n, is_svd T (svd T)) -> (0 < K)%N -> made g -> (forall i, 0 <= wt w i) -> 0 < weight w ->
  let Fl := vf *: (K%:R^-1 *: \sum_k wcov X (rw g X w k)) in
  (posdef Fl -> exists g', g_epoch ln ex c e15 svd true true vf X w g = ok g' /\ made g' /\ g_pi g' = g_pi g /\
     forall k, g_mu g' k = wmean X (rw g X w k) /\ is_floored (wcov X (rw g X w k)) Fl (invmx (g_L g' k)) /\
       (possemi (wcov X (rw g X w k) - Fl) -> g_L g' k = invmx (wcov X (rw g X w k))) /\
       (possemi (wcov X (rw g X w k) - Fl) \/ possemi (invmx Fl - g_L g k) ->
          ln (\det (g_L g k)) - \tr (g_L g k *m wcov X (rw g X w k)) <= ln (\det (g_L g' k)) - \tr (g_L g' k *m wcov X (rw g X w k)))) /\
  (~ posdef Fl -> g_epoch ln ex c e15 svd true true vf X w g = err linalg_error).
Proof.
move=> LO E E0 m K n X w g vf SV K0 M W0 WP Fl. have LG := LO.1. have RP := fun k => rw_pos X k E E0 K0 M W0 WP.
rewrite /g_epoch. case EE: (estep ln ex e15 g X w) => [N U].
have NU : forall k, (N k, U k) = accum X (rw g X w k) by move=> k; rewrite -estep_k // EE.
have NE : forall k, N k = weight (rw g X w k) by move=> k; have := NU k; rewrite accum_form => -[].
have UE : forall k, unstack n (U k) = (\sum_i wt (rw g X w k) i *: row i X, s2v (\sum_i wt (rw g X w k) i *: ((row i X)^T *m row i X)) None) by move=> k; have := NU k; rewrite accum_form => -[_ ->]; rewrite unstackK.
rewrite /g_mstep.
have MU : forall k, (N k)^-1 *: (unstack n (U k)).1 = wmean X (rw g X w k) by move=> k; rewrite UE NE.
have [|C [-> CE]] := @mapR_eq K _ (0 : 'M[F]_n) (fun k => let! Sm := v2s n [seq z / N k | z <- (unstack n (U k)).2] None in ok (Sm - ((N k)^-1 *: (unstack n (U k)).1)^T *m ((N k)^-1 *: (unstack n (U k)).1))) (fun k => wcov X (rw g X w k)).
  move=> k. rewrite MU UE /= s2v_div v2s_s2v; last by rewrite linearZ /= sum_sym // => i; exact: outer_sym. rewrite /= NE cov_moment // gt_eqF //. exact: (RP k).2.
rewrite /=. have -> : \sum_k C k = \sum_k wcov X (rw g X w k) by apply: eq_bigr => k _; rewrite CE. rewrite -/Fl.
have SS : (\sum_k wcov X (rw g X w k))^T = \sum_k wcov X (rw g X w k) by rewrite linear_sum /=; apply: eq_bigr => k _; exact: wcov_sym.
have SF : Fl^T = Fl by rewrite /Fl linearZ /= linearZ /= SS.
have [C1 [C2 C3]] := C73_cholesky SF. rewrite /=. split; last by move=> /C2 ->.
move=> DF. have [R ER] := C1.1 DF. have [UR [PR GR]] := C3 _ ER. rewrite ER /=.
have [|L [EL LE]] := @mapR_ok K _ (0 : 'M[F]_n) (fun k => let! X := fullcov_varfloor (@svd n) (C k) R true false in let! p := invert_pdmat ln X false in ok (p_inv p)).
  move=> k. have PS : possemi (C k) by rewrite CE; apply: wcov_semi; exact: (RP k).1. have NZ : forall i, R i i != 0 by move=> i; rewrite gt_eqF.
  have [Y [EY [[DY _] _]]] := floor_call SV PS UR NZ. rewrite EY /=. have [_ /(_ DY) [p [-> _]]] := C73_invert_pdmat LG false DY.1. by eexists.
rewrite EL /=.
have LK : forall k, posdef (L k) /\ is_floored (wcov X (rw g X w k)) Fl (invmx (L k)) /\ (possemi (wcov X (rw g X w k) - Fl) -> L k = invmx (wcov X (rw g X w k))) /\
  (possemi (wcov X (rw g X w k) - Fl) \/ possemi (invmx Fl - g_L g k) -> ln (\det (g_L g k)) - \tr (g_L g k *m wcov X (rw g X w k)) <= ln (\det (L k)) - \tr (L k *m wcov X (rw g X w k))).
  move=> k. have PS : possemi (C k) by rewrite CE; apply: wcov_semi; exact: (RP k).1. have NZ : forall i, R i i != 0 by move=> i; rewrite gt_eqF.
  have [Y [EY [FY SL]]] := floor_call SV PS UR NZ. have DY := FY.1. have := LE k. rewrite EY /=. have [_ /(_ DY) [p [-> [_ [_ [IV _]]]]]] := C73_invert_pdmat LG false DY.1. rewrite /= => -[<-].
  have -> : p_inv p = invmx Y by rewrite -[p_inv p](mulmxK (posdef_unit DY)) IV mul1mx. rewrite GR in FY SL. rewrite CE in FY SL PS. rewrite invmxK. split; first exact: posdef_inv. split=> //.
  have FE := FY.2.2.2.1. split; first by move=> /FE ->. apply: floored_ml => //. exact: (M.2.1 k). move=> Q. apply: SL => //. exact: (M.2.1 k).1.
have [g' [-> [EP [EM [EL' M']]]]] := @mk_ok K n (g_pi g) (fun k => (N k)^-1 *: (unstack n (U k)).1) L LG M.1 (fun k => (LK k).1).
exists g'. split=> //. split=> //. split=> // k. rewrite EM MU EL'. split=> //. exact: (LK k).2.
Qed.

(** ** EM *)
Lemma jensen K (a b : 'I_K -> F) : log_ok ln -> (0 < K)%N -> (forall k, 0 < a k) -> (forall k, 0 < b k) ->
  \sum_k a k / (\sum_j a j) * (ln (b k) - ln (a k)) <= ln (\sum_j b j) - ln (\sum_j a j).
Proof.
move=> [L LE] K0 PA PB. have SP : forall f : 'I_K -> F, (forall k, 0 < f k) -> 0 < \sum_j f j.
  move=> f P. rewrite (bigD1 (Ordinal K0)) //= ltr_paddr ?sumr_ge0 // => i _. exact: ltW.
have AP := SP a PA. have BP := SP b PB. set A := \sum_j a j in AP *. set B := \sum_j b j in BP *.
have SA : \sum_k a k / A = 1 by rewrite -mulr_suml mulfV // gt_eqF. have SB : \sum_k b k / B = 1 by rewrite -mulr_suml mulfV // gt_eqF.
have -> : ln B - ln A = \sum_k a k / A * (ln B - ln A) by rewrite -mulr_suml SA mul1r.
rewrite -subr_le0 -sumrB. apply: (@le_trans _ _ (\sum_k (b k / B - a k / A))); last by rewrite sumrB SA SB subrr.
apply: ler_sum => k _. have AK : 0 < a k / A by rewrite divr_gt0. have BK : 0 < b k / B by rewrite divr_gt0.
have T := LE ((b k / B) * (a k / A)^-1) (divr_gt0 BK AK).
have LT : ln ((b k / B) * (a k / A)^-1) = (ln (b k) - ln B) - (ln (a k) - ln A).
  rewrite L ?invr_gt0 // [ln (_^-1)]ln_inv // !L ?invr_gt0 // ![ln _^-1]ln_inv //.
rewrite LT in T. have -> : a k / A * (ln (b k) - ln (a k)) - a k / A * (ln B - ln A) = a k / A * (ln (b k) - ln B - (ln (a k) - ln A)).
  have R1 : forall t p q r s : F, t * (p - q) - t * (r - s) = t * (p - r - (q - s)) by fr. exact: R1.
have -> : b k / B - a k / A = a k / A * (b k / B / (a k / A) - 1) by rewrite mulrBr mulr1 mulrCA mulfV ?mulr1 // gt_eqF.
by rewrite ler_pmul2l.
Qed.
Lemma ln_joint K n (g : gmm F K n) x k : is_log ln -> exp_ok -> 0 < e15 -> made g -> ln (joint g x k) = ln (g_pi g k + e15) + log_gauss ln c (g_L g k) (g_mu g k) x.
Proof. move=> LG E E0 M. rewrite /joint LG ?E.2.1 ?E.2.2.1 // ltr_paddl ?M.1 //. Qed.
Lemma em_gen m K n (X : 'M[F]_(m, n)) w (g g' : gmm F K n) : log_ok ln -> exp_ok -> 0 < e15 -> (0 < K)%N -> made g -> made g' -> g_pi g' = g_pi g -> (forall i, 0 <= wt w i) ->
  (forall k, log_lik ln c X (rw g X w k) (g_L g k) (g_mu g k) <= log_lik ln c X (rw g X w k) (g_L g' k) (g_mu g' k)) -> mix_lik X w g <= mix_lik X w g'.
Proof.
move=> LO E E0 K0 M M' EP W0 H. rewrite -subr_ge0 /mix_lik -sumrB.
apply: (@le_trans _ _ (\sum_i \sum_k wt w i * (posterior g (row i X) k * (log_gauss ln c (g_L g' k) (g_mu g' k) (row i X) - log_gauss ln c (g_L g k) (g_mu g k) (row i X))))).
  rewrite exchange_big /=. apply: sumr_ge0 => k _. have HK := H k. rewrite -subr_ge0 /log_lik -sumrB in HK. move: HK. rewrite (eq_bigr (fun i => wt w i * (posterior g (row i X) k * (log_gauss ln c (g_L g' k) (g_mu g' k) (row i X) - log_gauss ln c (g_L g k) (g_mu g k) (row i X))))) // => i _. rewrite !rw_wt. have R1 : forall p t a b : F, p * t * a - p * t * b = t * (p * (a - b)) by fr. exact: R1.
apply: ler_sum => i _. rewrite -mulr_sumr -mulrBr. apply: ler_wpmul2l => //.
have J := @jensen K (joint g (row i X)) (joint g' (row i X)) LO K0 (fun k => joint_pos _ k E E0 M) (fun k => joint_pos _ k E E0 M').
apply: le_trans J. rewrite le_eqVlt; apply/orP; left; apply/eqP. apply: eq_bigr => k _. rewrite /posterior /mix (ln_joint _ k LO.1 E E0 M) (ln_joint _ k LO.1 E E0 M') EP.
have R1 : forall q a b : F, a - b = q + a - (q + b) by fr. congr (_ * _). exact: R1.
Qed.
(** An iteration of fit does not decrease the log-likelihood of the data, provided that the covariance of each component stays above the floor,
    or was above the floor before. *)
Theorem C95_em : log_ok ln -> exp_ok -> 0 < e15 ->
  forall m K n (X : 'M[F]_(m, n)) w (g : gmm F K n) vf, (forall T : 'M[F]_n, is_svd T (svd T)) -> (0 < K)%N -> made g -> (forall i, 0 <= wt w i) -> 0 < weight w ->
  let Fl := vf *: (K%:R^-1 *: \sum_k wcov X (rw g X w k)) in
  posdef Fl -> (forall k, possemi (wcov X (rw g X w k) - Fl) \/ possemi (invmx Fl - g_L g k)) ->
  exists g', g_epoch ln ex c e15 svd true true vf X w g = ok g' /\ made g' /\ mix_lik X w g <= mix_lik X w g'.
Proof.
move=> LO E E0 m K n X w g vf SV K0 M W0 WP Fl DF H. have [C1 _] := C95_mstep LO E E0 X vf SV K0 M W0 WP. have [g' [EG [M' [EP V]]]] := C1 DF.
exists g'. split=> //. split=> //. apply: em_gen => // k. have [EM [_ [_ ML]]] := V k. have [RW0 RWP] := rw_pos X k E E0 K0 M W0 WP.
have D := M.2.1 k. have D' := M'.2.1 k. rewrite !lik_form ?D.1 ?D'.1 ?gt_eqF // EM subrr form0l addr0. rewrite ler_pmul2l // ler_pmul2l ?invr_gt0 ?ltr0n // !quad_tr !wcov_sym.
have {}ML := ML (H k). have FP : 0 <= form (g_L g k) (wmean X (rw g X w k) - g_mu g k) (wmean X (rw g X w k) - g_mu g k) by exact: (posdef_semi D).2.
set f := form _ _ _ in FP *. set a := ln _ in ML *. set b := ln _ in ML *. set t := \tr _ in ML *. set t' := \tr _ in ML *.
have R1 : forall a q t f : F, a - q - (t + f) = a - t - q - f by fr. rewrite R1. have R2 : forall b q t : F, b - q - t = b - t - q by fr. rewrite (R2 b).
apply: (@le_trans _ _ (a - t - n%:R * c)); first by rewrite ger_addl oppr_le0. by rewrite ler_add2r.
Qed.
(** the same with the precisions kept fixed *)
Theorem C95_em_means : log_ok ln -> exp_ok -> 0 < e15 ->
  forall m K n (X : 'M[F]_(m, n)) w (g : gmm F K n) vf, (0 < K)%N -> made g -> (forall i, 0 <= wt w i) -> 0 < weight w ->
  exists g', g_epoch ln ex c e15 svd true false vf X w g = ok g' /\ made g' /\ g_pi g' = g_pi g /\ g_L g' = g_L g /\ (forall k, g_mu g' k = wmean X (rw g X w k)) /\
    mix_lik X w g <= mix_lik X w g'.
Proof.
move=> LO E E0 m K n X w g vf K0 M W0 WP. have LG := LO.1. rewrite /g_epoch. case EE: (estep ln ex e15 g X w) => [N U].
have NU : forall k, (N k, U k) = accum X (rw g X w k) by move=> k; rewrite -estep_k // EE.
have MU : forall k, (N k)^-1 *: (unstack n (U k)).1 = wmean X (rw g X w k) by move=> k; have := NU k; rewrite accum_form => -[-> ->]; rewrite unstackK.
rewrite /g_mstep. have [g' [EG [EP [EM [EL M']]]]] := @mk_ok K n (g_pi g) (fun k => (N k)^-1 *: (unstack n (U k)).1) (g_L g) LG M.1 M.2.1.
exists g'. split; first exact: EG. split=> //. split=> //. split=> //. have MU' : forall k, g_mu g' k = wmean X (rw g X w k) by move=> k; rewrite EM MU. split=> //.
apply: em_gen => // k. have [RW0 RWP] := rw_pos X k E E0 K0 M W0 WP. have D := M.2.1 k. rewrite EL MU' !lik_form ?D.1 ?gt_eqF // subrr form0l addr0. rewrite ler_pmul2l // ler_pmul2l ?invr_gt0 ?ltr0n //.
have FP : 0 <= form (g_L g k) (wmean X (rw g X w k) - g_mu g k) (wmean X (rw g X w k) - g_mu g k) by exact: (posdef_semi D).2.
by rewrite ler_sub // ler_addl.
Qed.
(** Whatever the options, an iteration never changes the mixture weights, and the configuration of a mixture cannot be read. *)
Theorem C95_weights_refuted : forall m K n um ul vf (X : 'M[F]_(m, n)) w (g g' : gmm F K n),
  (g_epoch ln ex c e15 svd um ul vf X w g = ok g' -> g_pi g' = g_pi g) /\ g_get_config g = err name_error.
Proof.
move=> m K n um ul vf X w g g'. split=> //. rewrite /g_epoch. case: (estep _ _ _ _ _ _) => N U. rewrite /g_mstep.
set r := (if ul then _ else _). case: r => //= L. rewrite /mk_gmm. case: (mapR _ _) => //= h [<-]. by [].
Qed.
End P.
Print Assumptions C95_density. Print Assumptions C95_batches. Print Assumptions C95_mstep. Print Assumptions C95_em. Print Assumptions C95_em_means. Print Assumptions C95_weights_refuted.

(** ** Witnesses *)
From Verif Require Import RInst.
From Coq Require Reals.
(** the real exponential and logarithm meet the hypotheses (real_log_ok for the logarithm) *)
Example real_exp_ok : @exp_ok R_rcfType Rpower.ln Rtrigo_def.exp.
Proof.
split; first exact: Exp_prop.exp_plus. split; first by move=> a; apply/RltbP; exact: Exp_prop.exp_pos. split; first exact: Rpower.ln_exp.
move=> t /RltbP T. exact: Rpower.exp_ln.
Qed.
Section W.
Variable F : rcfType.
Add Ring FRing'' : (F_ring F). Add Ring FZRing'' : (F_zring F). Add Field FField'' : (F_field F). Add Field FZField'' : (F_zfield F).
Definition svdw (n : nat) : 'M[F]_n -> 'M[F]_n * 'rV[F]_n :=
  match n as n return 'M[F]_n -> 'M[F]_n * 'rV[F]_n with 1%N => @svd1 F | _ => fun T => (T, 0) end.
(** two equal components, the samples 0 and 2, var_floor 1/2 *)
Example C95_witness (ln ex : F -> F) c e15 : log_ok ln -> exp_ok ln ex -> 0 < e15 ->
  exists g : gmm F 2 1, made ln c g /\ (forall T : 'M[F]_1, is_svd T (svdw T)) /\ 0 < weight (@None 'rV[F]_2) /\
  let Fl := 2%:R^-1 *: (2%:R^-1 *: \sum_k wcov (X2 F) (rw ln ex c e15 g (X2 F) None k)) in
  posdef Fl /\ forall k, possemi (wcov (X2 F) (rw ln ex c e15 g (X2 F) None k) - Fl).
Proof.
move=> LO E E0. have D1 : posdef (1%:M : 'M[F]_1) by apply: posdef1; exact: ltr01. have H0 : 0 <= 2%:R^-1 :> F by rewrite invr_ge0 ler0n. have NZ : (2%:R : F) != 0 by exact: two_neq0.
have [g [_ [EP [EM [EL M]]]]] := @mk_ok F ln c 2 1 (fun _ => 2%:R^-1) (fun _ => 0) (fun _ => 1%:M) LO.1 (fun _ => H0) (fun _ => D1).
exists g. split=> //. split; first exact: (C73_floor_witness F).1. split; first by rewrite X2_weight ltr0n.
have PO : forall i k, wt (rw ln ex c e15 g (X2 F) None k) i = 2%:R^-1.
  move=> i k. rewrite rw_wt mulr1 /posterior /mix. have J0 := joint_pos (row i (X2 F)) k E E0 M. have -> : \sum_j joint ln ex c e15 g (row i (X2 F)) j = 2%:R * joint ln ex c e15 g (row i (X2 F)) k.
    rewrite (eq_bigr (fun _ => joint ln ex c e15 g (row i (X2 F)) k)); last by move=> j _; rewrite /joint EP EM EL. by rewrite sumr_const card_ord mulr_natl.
  rewrite invfM mulrCA mulfV ?mulr1 //. by rewrite gt_eqF.
have WE : forall k, weight (rw ln ex c e15 g (X2 F) None k) = 1. move=> k. rewrite /weight !big_ord_recl big_ord0 !PO addr0. have Q : forall a : F, a * (2%:R^-1 + 2%:R^-1) = a by ff. have := Q 1. by rewrite !mul1r.
have ME : forall k, wmean (X2 F) (rw ln ex c e15 g (X2 F) None k) = 1%:M.
  move=> k. rewrite /wmean WE invr1 scale1r !big_ord_recl big_ord0 !PO !X2_row /= addr0 raddf0 scaler0 add0r scale_scalar_mx mulVf //.
have CE : forall k, wcov (X2 F) (rw ln ex c e15 g (X2 F) None k) = 1%:M.
  move=> k. rewrite /wcov WE invr1 scale1r ME !big_ord_recl big_ord0 !PO !X2_row /= addr0 -!raddfB /= !tr_scalar_mx !sm1 !scale_scalar_mx -raddfD /=. congr (_%:M).
  have Q : forall a : F, a * (2%:R^-1 * ((0 - 1) * (0 - 1)) + 2%:R^-1 * ((2%:R - 1) * (2%:R - 1))) = a by ff. by have := Q 1; rewrite !mul1r.
move=> Fl. have FE : Fl = (2%:R^-1)%:M.
  rewrite /Fl !big_ord_recl big_ord0 !CE addr0 -raddfD /= !scale_scalar_mx. congr (_%:M). have Q : forall a : F, a * (2%:R^-1 * (2%:R^-1 * (1 + 1))) = a * 2%:R^-1 by ff. by have := Q 1; rewrite !mul1r.
rewrite FE. split; first by apply: posdef1; rewrite invr_gt0 ltr0n. move=> k. rewrite CE -raddfB /=. apply: posdef_semi. apply: posdef1.
rewrite subr_gt0 invf_lt1 ?ltr0n // ltr1n. by [].
Qed.
End W.
