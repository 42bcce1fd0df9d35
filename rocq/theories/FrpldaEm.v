(** Posteriors, ELBO and EM of the full-rank PLDA (C75). *)
From Verif Require Import RingF LinAlg LinTrans LinAlgProps GaussLa Frplda FrpldaProps.
Set Warnings "-notation-overridden,-ambiguous-paths".
From mathcomp Require Import all_ssreflect all_algebra.
Set Implicit Arguments. Unset Strict Implicit. Unset Printing Implicit Defensive.
Import Order.TTheory GRing.Theory Num.Theory.
Local Open Scope ring_scope.

Section P.
Variable F : rcfType.
Add Ring FRing' : (F_ring F). Add Ring FZRing' : (F_zring F). Add Field FField' : (F_field F). Add Field FZField' : (F_zfield F).
Variable ln : F -> F.
Variable c : F.
Notation lg := (log_gauss ln c).
Notation total := FrpldaProps.total.
Notation ev := (FrpldaProps.ev ln c).
Notation posterior := (FrpldaProps.posterior ln c).
Notation evidence := (FrpldaProps.evidence ln c).
(** ** Posteriors *)
Fixpoint valid {M} (N : 'rV[F]_M) (gs : seq (pred 'I_M * F)) : Prop :=
  if gs is g :: gs' then (forall a, g.1 a -> g.2 = N 0 a) /\ 0 <= g.2 /\ valid N gs' else True.
Definition hits {M} (gs : seq (pred 'I_M * F)) (a : 'I_M) : nat := count (fun g => g.1 a) gs.
Definition pmean {d} (p : plda F d) (N : F) (g : 'rV[F]_d) : 'rV[F]_d := g *m invmx (prec p N).
Lemma py_loop_ok M d (p : plda F d) (gamma : 'M[F]_(M, d)) (N : 'rV[F]_M) gs st : is_log ln -> model_ok p -> valid N gs -> (forall a, (hits gs a <= 1)%N) ->
  exists r, py_loop ln p gamma gs st = ok r /\
  (forall a, if (0 < hits gs a)%N then row a (py r) = pmean p (N 0 a) (row a gamma) /\ pSigma r a = invmx (prec p (N 0 a)) /\
      plogpy r 0 a = plogpy st 0 a + (Frplda.half F) * (ln (\det (prec p (N 0 a))) - dot (pmean p (N 0 a) (row a gamma)) (row a gamma))
    else row a (py r) = row a (py st) /\ pSigma r a = pSigma st a /\ plogpy r 0 a = plogpy st 0 a) /\
  pPy r = pPy st + \sum_a (hits gs a)%:R *: invmx (prec p (N 0 a)).
Proof.
move=> LN MO. elim: gs st => [|[i k] gs IH] st /=.
  move=> _ _. exists st. split=> //; split=> //. by rewrite big1 ?addr0 // => a _; rewrite scale0r.
move=> [HV [K0 V]] H. have D := prec_ok MO K0. have [r0 [E0 [RT [LT [IV [LD _]]]]]] := (C73_invert_pdmat LN true D.1).2 D.
have UD := posdef_unit D. have PI : p_inv r0 = invmx (prec p k) by rewrite -[p_inv r0](mulmxK UD) IV mul1mx.
have PR : forall a, p_right r0 (row a gamma) = pmean p k (row a gamma) by move=> a; rewrite -[p_right _ _](mulmxK UD) RT.
rewrite -/(prec p k) E0 /=. set st' := Post _ _ _ _. have [|r [E [HR HP]]] := IH st' V; first by move=> a; apply: leq_trans (H a); rewrite /hits /= leq_addl.
exists r. split=> //. have ROW : forall a, row a (py st') = if i a then pmean p k (row a gamma) else row a (py st).
  move=> a. apply/rowP => j. rewrite !mxE. case: (i a); by rewrite ?PR ?mxE.
split.
- move=> a. rewrite /hits /=. have := HR a. have := H a. rewrite /hits /=. case IA: (i a) => /=.
    rewrite addSn ltnS leqn0 add0n => /eqP ->. move=> /= [A1 [A2 A3]]. have RA := ROW a. rewrite IA in RA. rewrite A1 A2 A3 PI. split; first by rewrite -(HV a IA). split; first by rewrite (HV a IA).
    rewrite mxE IA LD (HV a IA). congr (_ + _ * (_ - _)).
    rewrite (HV a IA) in RA. rewrite -RA /dot [RHS]mxE. apply: eq_bigr => j _. by rewrite !mxE.
  rewrite add0n => _. have RA := ROW a. rewrite IA in RA. case: ifP => _ [A1 [A2 A3]]; rewrite A1 A2 A3; split=> //; split=> //; by rewrite mxE IA.
- rewrite HP /= PI -addrA. congr (_ + _). have -> : #|i|%:R *: invmx (prec p k) = \sum_a (i a)%:R *: invmx (prec p (N 0 a)).
    rewrite -sum1_card natr_sum scaler_suml big_mkcond /=. apply: eq_bigr => a _. rewrite -topredE /=. case IA: (i a); last by rewrite scale0r. by rewrite (HV a IA).
  rewrite -big_split /=. apply: eq_bigr => a _. by rewrite -scalerDl -natrD.
Qed.
Lemma groups_ok M (N : 'rV[F]_M) b : (forall a, 0 <= N 0 a) -> valid N (groups N b) /\ forall a, hits (groups N b) a = 1%N.
Proof.
move=> H. have HV : forall (T : eqType) (s : seq T) (f : T -> pred 'I_M * F), (forall t, t \in s -> (forall a, (f t).1 a -> (f t).2 = N 0 a) /\ 0 <= (f t).2) -> valid N [seq f t | t <- s].
  move=> T s f. elim: s => [//|t s IH] HT /=. have [A1 A2] := HT t (mem_head _ _). split=> //; split=> //. apply: IH => u U. apply: HT. by rewrite inE U orbT.
rewrite /groups /hits. case: b; split.
- apply: HV => k. rewrite mem_unique => /mapP [i _ ->] /=. split=> // a /eqP ->. by [].
- move=> a. rewrite count_map. have -> : count (preim (fun k => ((fun i => N 0 i == k), k)) (fun g => g.1 a)) (np_unique [seq N 0 i | i <- enum 'I_M]) = count_mem (N 0 a) (np_unique [seq N 0 i | i <- enum 'I_M]).
    by apply: eq_count => k; rewrite /= eq_sym.
  rewrite count_uniq_mem ?mem_unique ?map_f ?mem_enum // /np_unique sort_uniq undup_uniq. by [].
- apply: HV => i _ /=. split=> // a /eqP ->. by [].
- move=> a. rewrite count_map. have -> : count (preim (fun i => ((fun b => b == i), N 0 i)) (fun g => g.1 a)) (enum 'I_M) = count_mem a (enum 'I_M).
    by apply: eq_count => k; rewrite /= eq_sym.
  by rewrite count_uniq_mem ?enum_uniq // mem_enum.
Qed.
Lemma lg0 d (P : 'M[F]_d) g : posdef P -> lg P (g *m invmx P) 0 = - ((Frplda.half F) * d%:R * c) + (Frplda.half F) * (ln (\det P) - dot (g *m invmx P) g).
Proof.
move=> D. rewrite /log_gauss sub0r formNl formNr opprK form_dot mulmxKV ?posdef_unit // dotC /Frplda.half.
have Q : forall h l k x : F, h * (l - k - x) = - (h * k) + h * (l - x) by fr. by rewrite Q mulrA.
Qed.
(** for each class compute_py_g_x returns the mean and the covariance of the posterior of y, and the log posterior density at zero, in both
    ways of looping over the classes; and the sum of the covariances *)
Theorem C75_posterior : is_log ln -> forall M d (p : plda F d) (D : stats F M d) cls N_is_int, model_ok p -> stats_of cls D -> (forall k, nonneg (cls k)) ->
  exists r, compute_py_g_x ln c p D N_is_int = ok r /\
  (forall k, exists e, posterior p (cls k) e (invmx (pSigma r k)) (row k (py r)) /\ plogpy r 0 k = lg (invmx (pSigma r k)) (row k (py r)) 0) /\
  pPy r = \sum_k pSigma r k.
Proof.
move=> LN M d p D cls b MO ST NN. have N0 : forall a, 0 <= sN D 0 a by move=> a; rewrite ST.1 total_nonneg. have [V H] := groups_ok b N0.
rewrite /compute_py_g_x. set gamma := _ + _. set st := Post _ _ _ _.
have [|r [E [R1 R2]]] := py_loop_ok gamma st LN MO V; first by move=> a; rewrite H. exists r. split=> //.
have G : forall a, row a gamma = gam p (first (cls a)) by move=> a; rewrite row_bcast /gam ST.2.1.
split.
- move=> k. have := R1 k. rewrite H /= => -[A1 [A2 A3]]. exists (ev p (cls k)). rewrite A1 A2 A3 G mxE ST.1 /pmean invmxK. split; first exact: posterior_ok.
  rewrite lg0 //. apply: prec_ok => //. exact: total_nonneg.
- rewrite R2 /= add0r. apply: eq_bigr => k _. have := R1 k. rewrite H /= => -[_ [-> _]]. by rewrite scale1r.
Qed.
(** ** ELBO *)
Definition mk {d} (p : plda F d) (xs : seq (F * 'rV[F]_d)) : 'rV[F]_d := gam p (first xs) *m invmx (prec p (total xs)).
Definition Lk {d} (p : plda F d) (xs : seq (F * 'rV[F]_d)) : 'M[F]_d := prec p (total xs).
Lemma sum_rows M d (f g : 'M[F]_(M, d)) : \sum_k (row k f)^T *m row k g = f^T *m g.
Proof. apply/matrixP => i j. rewrite summxE mxE. apply: eq_bigr => k _. by rewrite mxE big_ord1 !mxE. Qed.
Lemma estep_ok M d (p : plda F d) (D : stats F M d) cls b : is_log ln -> model_ok p -> stats_of cls D -> (forall k, nonneg (cls k)) ->
  Estep ln c p D b = ok (Estats (\sum_k total (cls k)) M%:R (\sum_k second (cls k)) (\sum_k lg (Lk p (cls k)) (mk p (cls k)) 0) (\sum_k mk p (cls k))
    (\sum_k total (cls k) *: ((mk p (cls k))^T *m mk p (cls k))) (\sum_k (first (cls k))^T *m mk p (cls k))
    (\sum_k invmx (Lk p (cls k)) + \sum_k (mk p (cls k))^T *m mk p (cls k))).
Proof.
move=> LN MO ST NN. have [r [E [H1 H2]]] := C75_posterior LN b MO ST NN. rewrite /Estep E /=.
have PK : forall k, pSigma r k = invmx (Lk p (cls k)) /\ row k (py r) = mk p (cls k).
  move=> k. have [e [[D1 P1] _]] := H1 k. have [D2 P2] := posterior_ok ln c MO (NN k).
  have [|A1 [A2 _]] := @gauss_unique F ln c d (invmx (pSigma r k)) (Lk p (cls k)) (row k (py r)) (mk p (cls k)) e (ev p (cls k)) D1 D2; first by move=> y; rewrite -P1 -P2. split; last exact: A2. by rewrite -A1 invmxK.
congr (ok _). f_equal.
- apply: eq_bigr => k _. exact: ST.1.
- exact: ST.2.2.
- apply: eq_bigr => k _. have [e [_ ->]] := H1 k. by rewrite (PK k).1 (PK k).2 invmxK.
- apply: eq_bigr => k _. exact: (PK k).2.
- rewrite -sum_rows. apply: eq_bigr => k _. rewrite (PK k).2. have -> : row k (\matrix_(i, j) (py r i j * sN D 0 i)) = total (cls k) *: mk p (cls k).
    rewrite -(PK k).2. apply/rowP => j. by rewrite !mxE ST.1 mulrC.
  by rewrite linearZ /= -scalemxAl.
- rewrite -sum_rows. apply: eq_bigr => k _. by rewrite (PK k).2 ST.2.1.
- rewrite H2. congr (_ + _); first by apply: eq_bigr => k _; exact: (PK k).1. rewrite -sum_rows. apply: eq_bigr => k _. by rewrite (PK k).2.
Qed.
Lemma inner_tr d (A C : 'M[F]_d) : inner A C = \tr (A *m C^T).
Proof. rewrite /inner /mxtrace. apply: eq_bigr => i _. rewrite mxE. apply: eq_bigr => j _. by rewrite mxE. Qed.
Lemma form_trace d (P : 'M[F]_d) v : form P v v = \tr (P *m (v^T *m v)).
Proof. rewrite mulmxA mxtrace_mulC /form /mxtrace big_ord1 !mulmxA. by []. Qed.
Lemma inner_second d (P : 'M[F]_d) xs : inner P (second xs) = \sum_(o <- xs) o.1 * form P o.2 o.2.
Proof.
rewrite inner_tr /second trmx_sum mulmx_sumr raddf_sum. apply: eq_bigr => o _. have -> : (o.1 *: (o.2^T *m o.2))^T = o.1 *: (o.2^T *m o.2) by rewrite -[RHS]trmxK [in RHS]linearZ /= trmx_mul trmxK.
by rewrite /= -scalemxAr mxtraceZ form_trace.
Qed.
Lemma ev_zero d (p : plda F d) xs : model_ok p -> nonneg xs -> ev p xs = joint ln c p xs 0 - lg (Lk p xs) (mk p xs) 0.
Proof. move=> MO NN. rewrite (posterior_ok ln c MO NN).2 /Lk /mk addrK. by []. Qed.
(** the ELBO is the log evidence of the data, summed over the classes: the bound is tight *)
Theorem C75_elbo : is_log ln -> forall M d (p : plda F d) (D : stats F M d) cls N_is_int, model_ok p -> stats_of cls D -> (forall k, nonneg (cls k)) ->
  exists s e, Estep ln c p D N_is_int = ok s /\ elbo ln c p s = ok (\sum_k e k) /\ forall k, evidence p (cls k) (e k).
Proof.
move=> LN M d p D cls b MO ST NN. have E := @estep_ok M d p D cls b LN MO ST NN. eexists; exists (fun k => ev p (cls k)). split; first exact: E. split; last by move=> k; exact: evidence_ok.
rewrite /elbo (logdet_ok LN MO.1) (logdet_ok LN MO.2) /=. congr (ok _).
under [RHS]eq_bigr => k _ do rewrite (ev_zero MO (NN k)). rewrite sumrB. congr (_ - _).
have -> : inner (W p) (\sum_k second (cls k)) = \sum_k \sum_(o <- cls k) o.1 * form (W p) o.2 o.2.
  rewrite inner_tr trmx_sum mulmx_sumr raddf_sum. apply: eq_bigr => k _. by rewrite -inner_second inner_tr.
rewrite /joint big_split addrC /=. congr (_ + _).
  rewrite sumr_const card_ord /log_gauss /Frplda.half sub0r formNl formNr opprK -[RHS]mulr_natl.
  have Q : forall h m k b x : F, h * m * (- k + b - x) = m * (h * (b - k - x)) by fr. exact: Q.
have -> : \sum_k \sum_(o <- cls k) o.1 * lg (W p) 0 o.2 = \sum_k (Frplda.half F) * (total (cls k) * (ln (\det (W p)) - d%:R * c) - \sum_(o <- cls k) o.1 * form (W p) o.2 o.2).
  apply: eq_bigr => k _. rewrite /total mulr_suml -sumrB mulr_sumr. apply: eq_bigr => o _. rewrite /log_gauss subr0 /Frplda.half.
  have Q : forall h w l x : F, w * (h * (l - x)) = h * (w * l - w * x) by fr. exact: Q.
rewrite -mulr_sumr sumrB -mulr_suml.
have Q : forall h n d c l x : F, h * (- (n * d * c) + n * l - x) = h * (n * (l - d * c) - x) by fr. exact: Q.
Qed.
(** ** The M step *)
Lemma form_tr1 d (P : 'M[F]_d) v : form P v v = \tr (P *m (v^T *m v)).
Proof. exact: form_trace. Qed.
Section Prior.
Variables (M d : nat) (L : 'I_M.+1 -> 'M[F]_d) (m : 'I_M.+1 -> 'rV[F]_d) (A : 'I_M.+1 -> 'M[F]_d).
Hypothesis (LP : forall k, posdef (L k)) (RA : forall k, root_of (A k) (L k)).
Notation n := (M.+1%:R : F).
Definition Sc (a : 'rV[F]_d) : 'M[F]_d := n^-1 *: \sum_k (invmx (L k) + (m k - a)^T *m (m k - a)).
Lemma n_pos : 0 < n. Proof. by rewrite ltr0n. Qed.
Lemma n_unit : n != 0. Proof. by rewrite gt_eqF // n_pos. Qed.
Lemma Sc_form a v : form (Sc a) v v = n^-1 * \sum_k (form (invmx (L k)) v v + (dot (m k - a) v) ^+ 2).
Proof.
rewrite /Sc formPZ. congr (_ * _). have -> : forall (f : 'I_M.+1 -> 'M[F]_d), form (\sum_k f k) v v = \sum_k form (f k) v v.
  move=> f. by rewrite /form mulmx_sumr mulmx_suml summxE.
apply: eq_bigr => k _. rewrite formPD. congr (_ + _). rewrite /form mulmxA -[_ *m _ *m v^T]mulmxA mxE big_ord1 expr2 /dot.
rewrite [X in _ = X * _](_ : _ = (v *m (m k - a)^T) 0 0) //. by rewrite -/(dot v (m k - a)) dotC.
Qed.
Lemma Sc_pos a : posdef (Sc a).
Proof.
split.
  rewrite /Sc linearZ /= trmx_sum. congr (_ *: _). apply: eq_bigr => k _. by rewrite [LHS]linearD /= trmx_mul trmxK (posdef_inv (LP k)).1.
move=> v V. rewrite Sc_form mulr_gt0 ?invr_gt0 ?n_pos // big_ord_recl. apply: ltr_paddr.
  apply: sumr_ge0 => k _. apply: addr_ge0; last exact: sqr_ge0. exact: (posdef_semi (posdef_inv (LP _))).2.
apply: ltr_paddr; first exact: sqr_ge0. exact: (posdef_inv (LP _)).2.
Qed.
Lemma Ex_prior P a : \sum_k Ex (A k) (m k) (lg P a) = 2%:R^-1 * n * (ln (\det P) - d%:R * c - \tr (P *m Sc a)).
Proof.
under eq_bigr => k _ do rewrite Ex_gauss (root_tr _ (RA k)). rewrite -mulr_sumr sumrB sumr_const card_ord -mulrA. congr (_ * _).
rewrite [RHS]mulrBr. congr (_ - _); first exact/esym/mulr_natl. rewrite /Sc -scalemxAr mxtraceZ mulrA mulfV ?n_unit // mul1r mulmx_sumr raddf_sum. apply: eq_bigr => k _.
by rewrite /= mulmxDr mxtraceD form_trace addrC.
Qed.
Definition mbar : 'rV[F]_d := n^-1 *: \sum_k m k.
Lemma sum_dev : \sum_k (m k - mbar) = 0.
Proof. rewrite sumrB sumr_const card_ord -scaler_nat /mbar scalerA mulfV ?n_unit // scale1r subrr. by []. Qed.
Lemma zmodQ (V : zmodType) (i x y : V) : i + (x - y) - (i + x) = - y.
Proof. by rewrite addrA addrAC subrr add0r. Qed.
Lemma Sc_mbar : Sc mbar = n^-1 *: (\sum_k invmx (L k) + \sum_k (m k)^T *m m k) - mbar^T *m mbar.
Proof.
have -> : mbar^T *m mbar = n^-1 *: (\sum_k ((m k)^T *m mbar)).
  rewrite -mulmx_suml -trmx_sum scalemxAl. congr (_ *m _). by rewrite /mbar linearZ.
rewrite -scalerBr /Sc. congr (_ *: _). rewrite -addrA -sumrB -big_split /=.
apply/eqP. rewrite -subr_eq0 -sumrB. apply/eqP.
transitivity (\sum_k - (mbar^T *m (m k - mbar))).
  apply: eq_bigr => k _. rewrite [(m k - _)^T]linearB /= mulmxBl [(m k)^T *m (_ - _)]mulmxBr.
  exact: zmodQ.
by rewrite sumrN -mulmx_sumr sum_dev mulmx0 oppr0.
Qed.
Lemma tr_Sc P a : \tr (P *m Sc a) = n^-1 * \sum_k (\tr (P *m invmx (L k)) + form P (m k - a) (m k - a)).
Proof. rewrite /Sc -scalemxAr mxtraceZ mulmx_sumr raddf_sum. congr (_ * _). apply: eq_bigr => k _. by rewrite /= mulmxDr mxtraceD form_trace. Qed.
Lemma Sc_shift P a : \tr (P *m Sc a) = \tr (P *m Sc mbar) + form P (mbar - a) (mbar - a).
Proof.
rewrite !tr_Sc. apply: (mulfI n_unit). rewrite mulrDr !mulrA mulfV ?n_unit // !mul1r.
have -> : n * form P (mbar - a) (mbar - a) = \sum_(k < M.+1) form P (mbar - a) (mbar - a) by rewrite sumr_const card_ord; exact: mulr_natl.
rewrite -big_split /=. apply/eqP. rewrite -subr_eq0 -sumrB. apply/eqP.
transitivity (\sum_k (form P (m k - mbar) (mbar - a) + form P (mbar - a) (m k - mbar))).
  apply: eq_bigr => k _. have -> : m k - a = (m k - mbar) + (mbar - a) by rewrite addrA subrK.
  rewrite formDl !formDr. have Q : forall t x y z w : F, t + (x + y + (z + w)) - (t + x + w) = y + z by fr. exact: Q.
rewrite big_split /=. have E1 : forall v, \sum_k form P (m k - mbar) v = 0.
  move=> v. rewrite /form -summxE -!mulmx_suml sum_dev !mul0mx mxE. by [].
have E2 : forall v, \sum_k form P v (m k - mbar) = 0.
  move=> v. rewrite /form -summxE -mulmx_sumr -trmx_sum sum_dev trmx0 mulmx0 mxE. by [].
by rewrite E1 E2 addr0.
Qed.
Lemma half_n_pos : 0 <= 2%:R^-1 * n. Proof. apply: mulr_ge0; last exact: ler0n. by rewrite invr_ge0 ler0n. Qed.
(** the mean of the posterior means is the best mean; for it the best precision is the inverse of Sc mbar *)
Lemma best_mean P a : posdef P -> \sum_k Ex (A k) (m k) (lg P a) <= \sum_k Ex (A k) (m k) (lg P mbar).
Proof.
move=> D. rewrite !Ex_prior. apply: ler_wpmul2l; first exact: half_n_pos. rewrite ler_add2l ler_opp2 [X in _ <= X]Sc_shift ler_addl. exact: (posdef_semi D).2.
Qed.
Lemma best_prec P a : log_ok ln -> posdef P -> \sum_k Ex (A k) (m k) (lg P a) <= \sum_k Ex (A k) (m k) (lg (invmx (Sc a)) a).
Proof.
move=> LO D. rewrite !Ex_prior. apply: ler_wpmul2l; first exact: half_n_pos. have := ml_lemma LO D (Sc_pos a). rewrite mulVmx; last exact: posdef_unit (Sc_pos a). rewrite mxtrace1.
set u := ln _. set v := ln _. rewrite -[u - _ - _]addrA -[v - _ - _]addrA ![- (d%:R * c) + _]addrC !addrA ler_add2r. by [].
Qed.
End Prior.
(** *** The whole M step *)
Definition keeps_W (cf : config) : bool := ~~ update_W cf && (update_mu cf || ~~ update_B cf).
Lemma mstep_ok M d (p : plda F d) (D : stats F M.+1 d) cls b cf s : log_ok ln -> model_ok p -> stats_of cls D -> (forall k, nonneg (cls k)) ->
  keeps_W cf -> Estep ln c p D b = ok s ->
  exists p', MstepML ln cf p s = ok p' /\ model_ok p' /\ \sum_k ev p (cls k) <= \sum_k ev p' (cls k).
Proof.
move=> LO MO ST NN CF ES. have := @estep_ok _ d p D cls b LO.1 MO ST NN. rewrite ES => -[{ES s}->]. rewrite /MstepML /=.
have LP : forall k, posdef (Lk p (cls k)) by move=> k; apply: prec_ok => //; exact: total_nonneg.
have [A RA] : exists A : 'I_M.+1 -> 'M[F]_d, forall k, root_of (A k) (Lk p (cls k)).
  have X : forall k, exists Ak, root_of Ak (Lk p (cls k)) by move=> k; exact: root_ex. 
  exact: fin_all_exists X.
set mm := fun k => mk p (cls k). have SP := Sc_pos mm LP.
have -> : (M.+1%:R^-1 *: \sum_k mk p (cls k)) = mbar mm by [].
have KEY : forall p', model_ok p' -> W p' = W p -> \sum_k Ex (A k) (mm k) (lg (B p) (mu p)) <= \sum_k Ex (A k) (mm k) (lg (B p') (mu p')) ->
  \sum_k ev p (cls k) <= \sum_k ev p' (cls k).
  move=> p' MO' WE H. rewrite -subr_ge0 in H. rewrite -subr_ge0. apply: le_trans H _. rewrite -!sumrB. apply: ler_sum => k _.
  have [_ P1] := posterior_ok ln c MO (NN k). have [DP' P2] := posterior_ok ln c MO' (NN k).
  apply: le_trans (em_step LO (LP k) DP' (RA k) P1 P2). rewrite /joint WE !ExD. set u := Ex _ _ _. set v := Ex _ _ _. set w := Ex _ _ _.
  have Q : forall x y z : F, x - y = x + z - (y + z) by fr. by rewrite -Q.
rewrite /keeps_W in CF. have [/negbTE -> CF2] := andP CF. case: (update_mu cf) CF2 => /= CF2.
  case: (update_B cf) => /=.
    have -> : M.+1%:R^-1 *: (\sum_k invmx (Lk p (cls k)) + \sum_k (mk p (cls k))^T *m mk p (cls k)) - (mbar mm)^T *m mbar mm = Sc (fun k => Lk p (cls k)) mm (mbar mm) by rewrite Sc_mbar.
    have D1 := SP (mbar mm). have [r [E [_ [_ [IV _]]]]] := (C73_invert_pdmat LO.1 false D1.1).2 D1. rewrite E /=.
    have PI : p_inv r = invmx (Sc (fun k => Lk p (cls k)) mm (mbar mm)) by rewrite -[p_inv r](mulmxK (posdef_unit D1)) IV mul1mx.
    eexists. split; first by []. rewrite PI. have MO' : model_ok (Plda (mbar mm) (invmx (Sc (fun k => Lk p (cls k)) mm (mbar mm))) (W p)).
      split; last exact: MO.2. exact: posdef_inv.
    split=> //. apply: KEY => //=. apply: (@le_trans _ _ (\sum_k Ex (A k) (mm k) (lg (B p) (mbar mm)))); [exact: (@best_mean _ _ (fun k => Lk p (cls k)) mm A RA _ _ MO.1)|exact: (@best_prec _ _ (fun k => Lk p (cls k)) mm A LP RA _ _ LO MO.1)].
  eexists. split; first by []. have MO' : model_ok (Plda (mbar mm) (B p) (W p)) by split; [exact: MO.1|exact: MO.2].
  split=> //. apply: KEY => //=. exact: (@best_mean _ _ (fun k => Lk p (cls k)) mm A RA _ _ MO.1).
rewrite (negbTE CF2) /=. exists p. by case: p MO {ST NN LP RA SP KEY mm A} => ? ? ? MO.
Qed.
(** EM with a fixed within-class precision matrix (and mean and between-class matrix both updated, or only the mean, or none): the M step
    succeeds and the total log evidence of the data does not decrease *)
Theorem C75_em : log_ok ln -> forall M d (p : plda F d) (D : stats F M.+1 d) cls N_is_int cf s, model_ok p -> stats_of cls D -> (forall k, nonneg (cls k)) ->
  keeps_W cf -> Estep ln c p D N_is_int = ok s ->
  exists p' e e', MstepML ln cf p s = ok p' /\ model_ok p' /\ (forall k, evidence p (cls k) (e k)) /\ (forall k, evidence p' (cls k) (e' k)) /\ \sum_k e k <= \sum_k e' k.
Proof.
move=> LO M d p D cls b cf s MO ST NN CF ES. have [p' [E [MO' H]]] := mstep_ok LO MO ST NN CF ES.
exists p', (fun k => ev p (cls k)), (fun k => ev p' (cls k)). split=> //; split=> //. split; first by move=> k; exact: evidence_ok. split=> // k. exact: evidence_ok.
Qed.
(** so the ELBOs that fit reports never decrease *)
Theorem C75_fit : log_ok ln -> forall M d (p : plda F d) (D : stats F M.+1 d) cls N_is_int cf epochs, model_ok p -> stats_of cls D -> (forall k, nonneg (cls k)) ->
  keeps_W cf -> exists p' vs, fit_loop ln c cf true D N_is_int epochs p = ok (p', vs) /\ model_ok p' /\ size vs = epochs /\ sorted <=%R vs.
Proof.
move=> LO M d p D cls b cf epochs MO ST NN CF.
have G : forall p, model_ok p -> exists p' vs, fit_loop ln c cf true D b epochs p = ok (p', vs) /\ model_ok p' /\ size vs = epochs /\ sorted <=%R vs /\
  (forall v vs', vs = v :: vs' -> v = \sum_k ev p (cls k)).
  elim: epochs => [|e IH] q MQ /=; first by exists q, [::].
  have [s [ee [E1 [E2 E3]]]] := C75_elbo LO.1 b MQ ST NN. rewrite E1 /= E2 /=. have [q' [E4 [MQ' LE]]] := mstep_ok LO MQ ST NN CF E1. rewrite E4 /=.
  have [p' [vs [E5 [M5 [S5 [O5 H5]]]]]] := IH _ MQ'. rewrite E5 /=. exists p', (\sum_k ee k :: vs).
  have EE : \sum_k ee k = \sum_k ev q (cls k) by apply: eq_bigr => k _; apply: (evidence_unique (E3 k)); exact: evidence_ok.
  split=> //; split=> //. split; first by rewrite /= S5. split; last by move=> v vs' [<- _].
  case: vs O5 H5 {E5 S5} => [//|v vs] /= O5 H5. rewrite O5 andbT (H5 v vs) // EE. by [].
have [p' [vs [E [M5 [S5 [O5 _]]]]]] := G p MO. by exists p', vs.
Qed.
End P.
Print Assumptions C75_posterior. Print Assumptions C75_elbo. Print Assumptions C75_em. Print Assumptions C75_fit.
