(** The EM steps of SPLDA (C76): splda.py:162-246, plda_base.py:42-88. *)
From Verif Require Import RingF LinAlg LinTrans LinTransProps LinAlgProps GaussLa Frplda FrpldaProps FrpldaEm Splda SpldaProps.
Set Warnings "-notation-overridden,-ambiguous-paths".
From mathcomp Require Import all_ssreflect all_algebra.
Set Implicit Arguments. Unset Strict Implicit. Unset Printing Implicit Defensive.
Import Order.TTheory GRing.Theory Num.Theory.
Local Open Scope ring_scope.

Section P.
Variable F : rcfType.
Add Ring FRing' : (F_ring F). Add Ring FZRing' : (F_zring F). Add Field FField' : (F_field F). Add Field FZField' : (F_zfield F).
Variable ln : F -> F.
Variable c : F.
Notation lg := (log_gauss ln c).
Notation total := FrpldaProps.total.
Notation half := (Frplda.half F).
(** ** Matrix facts *)
Lemma semi_congr_gen e d (R : 'M[F]_e) (X : 'M[F]_(e, d)) : possemi R -> possemi (X^T *m R *m X).
Proof.
move=> [S H]. split; first by rewrite !trmx_mul trmxK S mulmxA. move=> v.
have -> : form (X^T *m R *m X) v v = form R (v *m X^T) (v *m X^T) by rewrite /form trmx_mul trmxK !mulmxA. exact: H.
Qed.
Lemma trace_semi d (Wm Q : 'M[F]_d) : posdef Wm -> possemi Q -> 0 <= \tr (Wm *m Q).
Proof.
move=> D [_ H]. have [A RA] := root_ex (posdef_inv D). have E : A^T *m A = Wm by rewrite RA.1 invmxK.
rewrite -E mxtrace_mulC mulmxA mxtrace_mulC mulmxA -form_tr. apply: sumr_ge0 => k _. exact: H.
Qed.
Lemma inv_found d (A : 'M[F]_d) b r : is_log ln -> A^T = A -> invert_pdmat ln A b = ok r -> posdef A /\ A *m p_inv r = 1%:M /\ p_inv r = invmx A /\
  (forall m (x : 'M[F]_(d, m)), A *m p_left r x = x).
Proof.
move=> LN S E. have D : posdef A.
  have [C1 _] := C73_cholesky S. apply/C1. move: E. rewrite /invert_pdmat. by case: (cholesky A) => [R _|//]; exists R.
have [r' [E' [_ [LT [IV _]]]]] := (C73_invert_pdmat LN b S).2 D. move: E'. rewrite E => -[E']. rewrite -E' in LT IV. have U := posdef_unit D.
have PI : p_inv r = invmx A by rewrite -[p_inv r](mulmxK U) IV mul1mx. split=> //. split; first by rewrite PI mulmxV. by split.
Qed.
Lemma block_sum (I : Type) (s : seq I) e (a : I -> 'M[F]_e) (b : I -> 'M[F]_(e, 1)) (g : I -> 'M[F]_(1, e)) (h : I -> 'M[F]_1) :
  \sum_(i <- s) block_mx (a i) (b i) (g i) (h i) = block_mx (\sum_(i <- s) a i) (\sum_(i <- s) b i) (\sum_(i <- s) g i) (\sum_(i <- s) h i).
Proof.
elim: s => [|x s IH]; first by rewrite !big_nil block_mx0. by rewrite !big_cons IH add_block_mx.
Qed.
Lemma row_sum (I : Type) (s : seq I) e d (a : I -> 'M[F]_(d, e)) (b : I -> 'M[F]_(d, 1)) :
  \sum_(i <- s) row_mx (a i) (b i) = row_mx (\sum_(i <- s) a i) (\sum_(i <- s) b i).
Proof. elim: s => [|x s IH]; first by rewrite !big_nil row_mx0. by rewrite !big_cons IH add_row_mx. Qed.
(** ** The expected statistics *)
Section Stats.
Variables (K e d : nat) (cls : 'I_K -> seq (F * 'rV[F]_d)) (L : 'I_K -> 'M[F]_e) (m : 'I_K -> 'rV[F]_e) (A : 'I_K -> 'M[F]_e).
Hypothesis (LP : forall k, posdef (L k)) (RA : forall k, root_of (A k) (L k)) (NN : forall k, nonneg (cls k)).
Definition ut (v : 'rV[F]_e) : 'rV[F]_(e + 1) := row_mx v 1%:M.
Definition Rt : 'M[F]_(e + 1) := block_mx (\sum_k total (cls k) *: (invmx (L k) + (m k)^T *m m k)) (\sum_k total (cls k) *: m k)^T (\sum_k total (cls k) *: m k) (\sum_k total (cls k))%:M.
Definition Ct : 'M[F]_(d, e + 1) := row_mx (\sum_k (first (cls k))^T *m m k) (\sum_k first (cls k))^T.
Definition Tt (X : 'M[F]_(e + 1, d)) : 'M[F]_d := (\sum_k second (cls k)) - Ct *m X - (Ct *m X)^T + X^T *m Rt *m X.
Lemma uu v : (ut v)^T *m ut v = block_mx (v^T *m v) v^T v 1%:M.
Proof. by rewrite /ut tr_row_mx mul_col_row trmx1 mulmx1 !mul1mx. Qed.
Lemma Rt_sum : Rt = \sum_k total (cls k) *: ((ut (m k))^T *m ut (m k) + block_mx (invmx (L k)) 0 0 0).
Proof.
rewrite /Rt trmx_sum. have -> : (\sum_k total (cls k))%:M = \sum_k (total (cls k))%:M :> 'M[F]_1 by rewrite -raddf_sum.
rewrite -block_sum. apply: eq_bigr => k _. rewrite uu add_block_mx scale_block_mx !addr0 [_ + invmx _]addrC [(_ *: m k)^T]linearZ /=. congr block_mx. by rewrite scalemx1.
Qed.
Lemma Ct_sum : Ct = \sum_k (first (cls k))^T *m ut (m k).
Proof.
rewrite /Ct trmx_sum -row_sum. apply: eq_bigr => k _. by rewrite /ut mul_mx_row mulmx1.
Qed.
Lemma form_sumP n (f : 'I_K -> 'M[F]_n) v : form (\sum_k f k) v v = \sum_k form (f k) v v.
Proof. by rewrite /form mulmx_sumr mulmx_suml summxE. Qed.
Lemma Rt_semi : possemi Rt.
Proof.
rewrite Rt_sum. split.
  rewrite trmx_sum. apply: eq_bigr => k _. by rewrite [(_ *: _)^T]linearZ /= [(_ + _)^T]linearD /= trmx_mul trmxK tr_block_mx !trmx0 (posdef_inv (LP k)).1.
move=> v. rewrite form_sumP. apply: sumr_ge0 => k _. rewrite formPZ formPD. apply: mulr_ge0; first exact: total_nonneg. apply: addr_ge0.
  rewrite /form mulmxA -mulmxA. have -> : ut (m k) *m v^T = (v *m (ut (m k))^T)^T by rewrite trmx_mul trmxK.
  set w := v *m _. exact: LinTransProps.mul_trmx_ge0.
rewrite /form -[v]hsubmxK tr_row_mx mul_row_block mul_row_col !mulmx0 !addr0 mul0mx addr0. exact: (posdef_semi (posdef_inv (LP k))).2.
Qed.
(** the expected quadratic term of an observation *)
Definition Tk (V : 'M[F]_(e, d)) (mu : 'rV[F]_d) k (x : 'rV[F]_d) : 'M[F]_d := (x - (m k *m V + mu))^T *m (x - (m k *m V + mu)) + V^T *m invmx (L k) *m V.
Lemma Ex_obs V mu (Wm : 'M[F]_d) k x : Ex (A k) (m k) (fun y => lg Wm (mu + y *m V) x) = 2%:R^-1 * (ln (\det Wm) - d%:R * c - \tr (Wm *m Tk V mu k x)).
Proof.
have -> : \tr (Wm *m Tk V mu k x) = Ex (A k) (m k) (fun y => form Wm (y *m V - (x - mu)) (y *m V - (x - mu))).
  rewrite Ex_form (root_tr _ (RA k)) /Tk mulmxDr mxtraceD -form_trace. congr (_ + _).
    have -> : x - (m k *m V + mu) = - (m k *m V - (x - mu)) by rewrite !opprB -addrA -opprD [mu + _]addrC. by rewrite formNl formNr opprK.
  by rewrite -!mulmxA [RHS]mxtrace_mulC -!mulmxA.
have -> : Ex (A k) (m k) (fun y => lg Wm (mu + y *m V) x) = Ex (A k) (m k) (fun y => 2%:R^-1 * ((ln (\det Wm) - d%:R * c) + (- 1) * form Wm (y *m V - (x - mu)) (y *m V - (x - mu)))).
  apply: Ex_ext => y. rewrite /log_gauss mulN1r. have -> : x - (mu + y *m V) = - (y *m V - (x - mu)) by rewrite !opprB -addrA -opprD. by rewrite formNl formNr opprK.
by rewrite ExZ ExD Ex_const ExZ mulN1r.
Qed.
Lemma Tt_sum V mu : \sum_k \sum_(o <- cls k) o.1 *: Tk V mu k o.2 = Tt (col_mx V mu).
Proof.
have UV : forall k, ut (m k) *m col_mx V mu = m k *m V + mu by move=> k; rewrite /ut mul_row_col mul1mx.
rewrite /Tt Ct_sum Rt_sum mulmx_suml trmx_sum mulmx_sumr mulmx_suml -!sumrB -big_split /=. apply: eq_bigr => k _.
rewrite -scalemxAr -scalemxAl mulmxDr mulmxDl.
have -> : (col_mx V mu)^T *m ((ut (m k))^T *m ut (m k)) *m col_mx V mu = (m k *m V + mu)^T *m (m k *m V + mu) by rewrite -UV trmx_mul !mulmxA.
have -> : (col_mx V mu)^T *m block_mx (invmx (L k)) 0 0 0 *m col_mx V mu = V^T *m invmx (L k) *m V.
  by rewrite tr_col_mx mul_row_block mul_row_col !mulmx0 !addr0 mul0mx addr0.
rewrite -!mulmxA UV /Tk -!mulmxA. set b := m k *m V + mu. set X := V^T *m _. clearbody b X.
rewrite /second /first /total. elim: (cls k) => [|o s IH]; first by rewrite !big_nil trmx0 !mul0mx trmx0 !subr0 scale0r addr0.
rewrite !big_cons IH [(o.1 *: o.2 + _)^T]linearD /= mulmxDl [(_ *m b + _)^T]linearD /= scalerDl [(o.1 *: o.2)^T]linearZ /= -scalemxAl [(_ *: (_ *m _))^T]linearZ /= [(o.2^T *m b)^T]trmx_mul trmxK.
rewrite [(o.2 - _)^T]linearB /= mulmxBl !mulmxBr.
set x := o.2^T *m o.2. set y := o.2^T *m b. set z := b^T *m o.2. set w := b^T *m b.
have Q : forall (k : F) (S P Q R x y z w X : 'M[F]_d), k *: (x - y - (z - w) + X) + (S - P - Q + R) = k *: x + S - (k *: y + P) - (k *: z + Q) + (k *: (w + X) + R).
  move=> ? ? ? ? ? ? ? ? ? ?. apply/matrixP => i j. rewrite !mxE.
  have Q : forall k S P Q R x y z w X : F, k * (x - y - (z - w) + X) + (S - P - Q + R) = k * x + S - (k * y + P) - (k * z + Q) + (k * (w + X) + R) by fr. exact: Q.
exact: Q.
Qed.
Definition obs (V : 'M[F]_(e, d)) (mu : 'rV[F]_d) (Wm : 'M[F]_d) : F := \sum_k Ex (A k) (m k) (fun y => \sum_(o <- cls k) o.1 * lg Wm (mu + y *m V) o.2).
Lemma obs_eq V mu Wm : obs V mu Wm = 2%:R^-1 * ((\sum_k total (cls k)) * (ln (\det Wm) - d%:R * c) - \tr (Wm *m Tt (col_mx V mu))).
Proof.
rewrite -Tt_sum mulmx_sumr [\tr _]raddf_sum /= mulr_suml -sumrB mulr_sumr. apply: eq_bigr => k _. rewrite Ex_sum mulmx_sumr [\tr _]raddf_sum /= /total mulr_suml -sumrB mulr_sumr.
apply: eq_bigr => o _. rewrite ExZ Ex_obs -scalemxAr mxtraceZ.
have Q : forall w h l x : F, w * (h * (l - x)) = h * (w * l - w * x) by fr. exact: Q.
Qed.
Lemma Tt_opt Y Dl : Dl^T *m (Rt *m Y - Ct^T) = 0 -> Tt (Y + Dl) = Tt Y + Dl^T *m Rt *m Dl.
Proof.
move=> H. have S := Rt_semi.1. have E : Dl^T *m Rt *m Y = (Ct *m Dl)^T by move: H; rewrite mulmxBr mulmxA trmx_mul => /eqP; rewrite subr_eq0 => /eqP.
have E2 : Y^T *m Rt *m Dl = Ct *m Dl by rewrite -[Ct *m Dl]trmxK -E !trmx_mul trmxK S mulmxA.
rewrite /Tt mulmxDr [(Ct *m Y + _)^T]linearD /= [(Y + Dl)^T]linearD /= !mulmxDl !mulmxDr E E2.
set a := \sum_k _. set b := Ct *m Y. set b' := b^T. set g := Ct *m Dl. set g' := g^T. set h := Y^T *m _ *m Y. set i := Dl^T *m _ *m Dl. clearbody a b b' g g' h i.
apply/matrixP => r s. rewrite !mxE. have Q : forall a b b' g g' h i : F, a - (b + g) - (b' + g') + (h + g + (g' + i)) = a - b - b' + h + i by fr. exact: Q.
Qed.
Lemma Tt_sym X : (Tt X)^T = Tt X.
Proof.
have S : (\sum_k second (cls k))^T = \sum_k second (cls k) :> 'M[F]_d.
  rewrite trmx_sum. apply: eq_bigr => k _. rewrite /second trmx_sum. apply: eq_bigr => o _. by rewrite [(_ *: _)^T]linearZ /= trmx_mul trmxK.
rewrite /Tt [(_ + _)^T]linearD /= [(_ - _)^T]linearB /= [(_ - Ct *m X)^T]linearB /= trmxK S !trmx_mul trmxK Rt_semi.1 mulmxA. congr (_ + _). by rewrite addrAC.
Qed.
Definition optimal (V : 'M[F]_(e, d)) (mu : 'rV[F]_d) (V0 : 'M[F]_(e, d)) (mu0 : 'rV[F]_d) : Prop :=
  (col_mx V0 mu0 - col_mx V mu)^T *m (Rt *m col_mx V mu - Ct^T) = 0.
Lemma obs_mean V mu V0 mu0 Wm : posdef Wm -> optimal V mu V0 mu0 -> obs V0 mu0 Wm <= obs V mu Wm.
Proof.
move=> D O. rewrite !obs_eq. apply: ler_wpmul2l; first by rewrite invr_ge0 ler0n. rewrite ler_add2l ler_opp2.
have -> : col_mx V0 mu0 = col_mx V mu + (col_mx V0 mu0 - col_mx V mu) by rewrite addrC subrK.
rewrite (Tt_opt O). set T := Tt _. clearbody T. rewrite mulmxDr mxtraceD ler_addl. apply: trace_semi => //. apply: semi_congr_gen. exact: Rt_semi.
Qed.
Lemma obs_prec V mu Wm Wm' : log_ok ln -> 0 < \sum_k total (cls k) -> posdef Wm -> posdef Wm' ->
  \tr (Wm *m invmx Wm') = \tr (Wm *m ((\sum_k total (cls k))^-1 *: Tt (col_mx V mu))) -> \tr (Wm' *m ((\sum_k total (cls k))^-1 *: Tt (col_mx V mu))) = d%:R ->
  obs V mu Wm <= obs V mu Wm'.
Proof.
move=> LO N0 D D' E E'. rewrite !obs_eq. apply: ler_wpmul2l; first by rewrite invr_ge0 ler0n. set N := \sum_k total _ in N0 E E' *. set T := Tt _ in E E' *.
have := ml_lemma LO D (posdef_inv D'). rewrite invmxK E. move: E'. rewrite -!scalemxAr !mxtraceZ. set t := \tr _. set t' := \tr _. set l := ln _. set l' := ln _. clearbody t t' l l'.
move=> <- H. have {}H : N * (l - N^-1 * t') <= N * (l' - N^-1 * t) by rewrite ler_pmul2l.
rewrite -subr_ge0 in H. rewrite -subr_ge0. have U : N != 0 by rewrite gt_eqF.
have Q : forall N k t t' l l' : F, N != 0 -> N * (l' - N^-1 * t) - N * (l - N^-1 * t') = N * (l' - k) - t - (N * (l - k) - t').
  move=> *. fnorm. field. apply/eqP. assumption.
by rewrite -Q.
Qed.
End Stats.
(** ** The ML step *)
Definition diag_ok {e d} (cf : sconfig) (p : splda F e d) : Prop := full_W cf \/ exists w, s_W p = diag_mx w.
Lemma unit_diag d (w : 'rV[F]_d) : diag_mx w \in unitmx -> invmx (diag_mx w) = diag_mx (\row_j (w 0 j)^-1).
Proof.
move=> U. have W0 : forall j, w 0 j != 0.
  move: U. rewrite unitmxE det_diag unitfE. move/prodf_neq0 => H j. exact: H.
rewrite -[RHS](mulKmx U). have -> : diag_mx w *m diag_mx (\row_j (w 0 j)^-1) = 1%:M.
  rewrite mulmx_diag. apply/matrixP => i j. rewrite !mxE. case: eqP => [E|_]; last by rewrite mulr0n. by rewrite mulfV.
by rewrite mulmx1.
Qed.
Lemma mean_step M e d (p : splda F e d) (D : stats F M d) cls b cf : is_log ln -> posdef (s_W p) -> stats_of cls D -> (forall k, nonneg (cls k)) ->
  s_mu p = 0 \/ (forall k, total (cls k) = 1) -> 0 < \sum_k total (cls k) ->
  let L := fun k => s_L p (cls k) in let m := fun k => s_m p (cls k) in
  forall s p', s_Estep ln c p D b = ok s -> s_MstepML ln cf p s = ok p' ->
  optimal cls L m (s_V p') (s_mu p') (s_V p) (s_mu p) /\
  if u_W cf then let S := (\sum_k total (cls k))^-1 *: Tt cls L m (col_mx (s_V p') (s_mu p')) in
    s_W p' = (if full_W cf then invmx S else diag_mx (\row_j (S j j)^-1)) /\ (full_W cf -> posdef S)
  else s_W p' = s_W p.
Proof.
move=> LN PW ST NN CE N0 L m s p' ES. have := s_estep_ok c b LN PW ST NN CE. rewrite ES => -[{ES s}->].
have LP : forall k, posdef (L k) by move=> k; exact: s_L_ok. have RS := Rt_semi m LP NN. have TS := Tt_sym m LP NN.
rewrite /s_MstepML /=. rewrite -/(Rt cls L m) -/(Ct cls m).
set C := \sum_k _ *m _. set F1 := \sum_k first _. set R := \sum_k _ *: (_ + _). set R1 := \sum_k _ *: s_m _ _. set N := \sum_k total _.
have RB : Rt cls L m = block_mx R R1^T R1 N%:M by []. have CB : Ct cls m = row_mx C F1^T by [].
have GR : forall V mu, Rt cls L m *m col_mx V mu - (Ct cls m)^T = col_mx (R *m V + R1^T *m mu - C^T) (R1 *m V + N *: mu - F1).
  move=> V mu. by rewrite RB CB mul_block_col mul_scalar_mx tr_row_mx trmxK opp_col_mx add_col_mx.
have OPT : forall V mu V0 mu0, (V0 - V)^T *m (R *m V + R1^T *m mu - C^T) = 0 -> (mu0 - mu)^T *m (R1 *m V + N *: mu - F1) = 0 -> optimal cls L m V mu V0 mu0.
  move=> V mu V0 mu0 H1 H2. by rewrite /optimal GR opp_col_mx add_col_mx tr_col_mx mul_row_col H1 H2 addr0.
have SR : R^T = R.
  have := RS.1. rewrite RB tr_block_mx => E. have := congr1 ulsubmx E. by rewrite !block_mxKul.
have N1 : N != 0 by rewrite gt_eqF.
(* the second part, for any V and mu that are not computed jointly *)
have WST : forall V mu (iW : 'M[F]_d) w, iW = N^-1 *: Tt cls L m (col_mx V mu) ->
  (if full_W cf then let! r := invert_pdmat ln iW false in ok (p_inv r) else ok (diag_mx (\row_j (iW j j)^-1))) = ok w ->
  w = (if full_W cf then invmx (N^-1 *: Tt cls L m (col_mx V mu)) else diag_mx (\row_j ((N^-1 *: Tt cls L m (col_mx V mu)) j j)^-1)) /\ (full_W cf -> posdef (N^-1 *: Tt cls L m (col_mx V mu))).
  move=> V mu iW w ->. set T := N^-1 *: _. have TT : T^T = T by rewrite /T [(_ *: _)^T]linearZ /= TS. case: (full_W cf) => /=; last by move=> [<-].
  case E: (invert_pdmat ln T false) => [r|//] [<-]. have [DT [_ [-> _]]] := inv_found LN TT E. by [].
have TE : forall V mu, \sum_k second (cls k) - Ct cls m *m col_mx V mu - (Ct cls m *m col_mx V mu)^T + (col_mx V mu)^T *m Rt cls L m *m col_mx V mu = Tt cls L m (col_mx V mu) by [].
case UM: (u_mu cf) => /=; case UV: (u_V cf) => /=.
- case E: (invert_pdmat ln (Rt cls L m) false) => [r|//] /=. have [DR [_ [_ LT]]] := inv_found LN RS.1 E.
  set X := p_left r _. have XE : Rt cls L m *m X = (Ct cls m)^T by exact: LT. set V := usubmx X. set mu := dsubmx X. have XV : X = col_mx V mu by rewrite vsubmxK.
  have O : optimal cls L m V mu (s_V p) (s_mu p) by rewrite /optimal -XV XE subrr mulmx0.
  have TV : \sum_k second (cls k) - C *m V - F1^T *m mu = Tt cls L m (col_mx V mu).
    rewrite /Tt -XV -mulmxA XE trmx_mul subrK -addrA -opprD. congr (_ - _). by rewrite XV CB mul_row_col.
  case UW: (u_W cf) => /=; last by move=> [<-].
  rewrite TV. set t := (if full_W cf then _ else _). case EW: t => [w|//] [<-] /=. split=> //. exact: (WST V mu _ w (erefl _) EW).
- set mu := N^-1 *: (F1 - _). have O : optimal cls L m (s_V p) mu (s_V p) (s_mu p).
    apply: OPT; first by rewrite subrr trmx0 mul0mx. by rewrite /mu scalerA mulfV // scale1r [F1 - _]addrC addrA subrr add0r subrr mulmx0.
  case UW: (u_W cf) => /=; last by move=> [<-].
  rewrite TE. set t := (if full_W cf then _ else _). case EW: t => [w|//] [<-] /=. split=> //. exact: (WST (s_V p) mu _ w (erefl _) EW).
- case E: (invert_pdmat ln R false) => [r|//] /=. have [DR [_ [_ LT]]] := inv_found LN SR E. set V := p_left r _.
  have O : optimal cls L m V (s_mu p) (s_V p) (s_mu p).
    apply: OPT; last by rewrite subrr trmx0 mul0mx. by rewrite /V LT subrK subrr mulmx0.
  case UW: (u_W cf) => /=; last by move=> [<-].
  rewrite TE. set t := (if full_W cf then _ else _). case EW: t => [w|//] [<-] /=. split=> //. exact: (WST V (s_mu p) _ w (erefl _) EW).
- have O : optimal cls L m (s_V p) (s_mu p) (s_V p) (s_mu p) by apply: OPT; by rewrite subrr trmx0 mul0mx.
  case UW: (u_W cf) => /=; last by move=> [<-].
  rewrite TE. set t := (if full_W cf then _ else _). case EW: t => [w|//] [<-] /=. split=> //. exact: (WST (s_V p) (s_mu p) _ w (erefl _) EW).
Qed.
Lemma ml_obs M e d (p : splda F e d) (D : stats F M d) cls b cf (A : 'I_M -> 'M[F]_e) : log_ok ln -> posdef (s_W p) -> stats_of cls D -> (forall k, nonneg (cls k)) ->
  s_mu p = 0 \/ (forall k, total (cls k) = 1) -> 0 < \sum_k total (cls k) -> diag_ok cf p -> (forall k, root_of (A k) (s_L p (cls k))) ->
  forall s p', s_Estep ln c p D b = ok s -> s_MstepML ln cf p s = ok p' -> posdef (s_W p') ->
  obs cls (fun k => s_m p (cls k)) A (s_V p) (s_mu p) (s_W p) <= obs cls (fun k => s_m p (cls k)) A (s_V p') (s_mu p') (s_W p').
Proof.
move=> LO PW ST NN CE N0 DO RA s p' ES EM PW'. have [O WE] := mean_step LO.1 PW ST NN CE N0 ES EM.
have LP : forall k, posdef (s_L p (cls k)) by move=> k; exact: s_L_ok.
apply: (le_trans (obs_mean LP RA NN PW O)). move: WE. case: (u_W cf); last by move=> ->. lazy zeta. set N := \sum_k _ in N0 *. set S := N^-1 *: _ => -[WE PS].
apply: (obs_prec RA LO N0 PW PW'); rewrite -/N -/S; case FW: (full_W cf) WE PS DO => WE PS DO.
- by rewrite WE invmxK.
- case: DO => [FW'|[w WD]]; first by rewrite FW' in FW. have U := posdef_unit PW'. rewrite WE in U. have := unit_diag U. rewrite -WE => ->.
  rewrite WD !mul_diag_mx /mxtrace. apply: eq_bigr => i _. by rewrite !mxE eqxx mulr1n invrK.
- have {}PS := PS isT. by rewrite WE mulVmx ?mxtrace1 // posdef_unit.
- have U := posdef_unit PW'. rewrite WE unitmxE det_diag unitfE in U. move/prodf_neq0: U => U.
  rewrite WE mul_diag_mx /mxtrace. transitivity (\sum_(i < d) (1 : F)); last by rewrite sumr_const card_ord.
  apply: eq_bigr => i _. rewrite [LHS]mxE. have := U i isT. rewrite !mxE. set x := _ * _ => X. by rewrite mulVf // -invr_eq0.
Qed.
(** ** The MD step *)
Lemma lg_change e (P R : 'M[F]_e) a m y : is_log ln -> posdef P -> R \in unitmx ->
  posdef (invmx R *m P *m (invmx R)^T) /\ lg (invmx R *m P *m (invmx R)^T) (a + m *m R) (a + y *m R) = lg P m y - 2%:R^-1 * ln (\det (R^T *m R)).
Proof.
move=> LN D U. have UI : invmx R \in unitmx by rewrite unitmx_inv. have D2 := congr_posdef UI D. split=> //.
have DG : posdef (R^T *m R) by exact: gram_posdef. have PG := det_pos DG. have PP := det_pos D.
rewrite /log_gauss. have -> : a + y *m R - (a + m *m R) = (y - m) *m R by rewrite opprD addrACA subrr add0r mulmxBl.
have -> : form (invmx R *m P *m (invmx R)^T) ((y - m) *m R) ((y - m) *m R) = form P (y - m) (y - m).
  rewrite /form [((y - m) *m R)^T]trmx_mul !mulmxA mulmxK // -[_ *m (invmx R)^T *m R^T]mulmxA -trmx_mul mulmxV // trmx1 mulmx1. by [].
have -> : \det (invmx R *m P *m (invmx R)^T) = \det P * (\det (R^T *m R))^-1.
  rewrite !det_mulmx !det_tr det_inv invfM. have Q : forall a b : F, a * b * a = b * (a * a) by fr. exact: Q.
rewrite LN ?invr_gt0 // ln_inv //. set x := ln _. set l := ln _. set f := form _ _ _. have Q : forall h x l k f : F, h * (x + - l - k - f) = h * (x - k - f) - h * l by fr. exact: Q.
Qed.
Lemma md_change e d (p1 : splda F e d) (R : 'M[F]_e) a xs : is_log ln -> posdef (s_W p1) -> R \in unitmx -> nonneg xs ->
  exists P' m', posdef P' /\ forall y, lg (invmx (R^T *m R)) a y + \sum_(o <- xs) o.1 * lg (s_W p1) (s_mu p1 + y *m s_V p1) o.2 =
    s_ev ln c (MkSplda (s_mu p1 + a *m s_V p1) (R *m s_V p1) (s_W p1)) xs + lg P' m' y.
Proof.
move=> LN D U NN. set p2 := MkSplda _ _ _. have D2 : posdef (s_W p2) by []. have [DL B] := s_bayes c LN D2 NN.
exists (invmx R *m s_L p2 xs *m (invmx R)^T), (a + s_m p2 xs *m R). split; first exact: (lg_change 0 0 0 LN DL U).1.
move=> y. set z := (y - a) *m invmx R. have -> : y = a + z *m R by rewrite /z mulmxKV // addrC subrK. rewrite (lg_change a (s_m p2 xs) z LN DL U).2.
have IR : invmx (R^T *m R) = invmx R *m 1%:M *m (invmx R)^T.
  rewrite mulmx1 -[RHS](mulKmx (_ : R^T *m R \in unitmx)) ?unitmx_mul ?unitmx_tr ?U // trmx_inv.
  rewrite [_ *m (invmx R *m _)]mulmxA -[R^T *m R *m invmx R]mulmxA mulmxV // mulmx1 mulmxV ?unitmx_tr // mulmx1. by [].
have := (lg_change a 0 z LN (@posdef_1 F e) U).2. rewrite mul0mx addr0 IR => ->. have := B z. rewrite /s_joint /=.
have -> : \sum_(o <- xs) o.1 * lg (s_W p1) (s_mu p1 + a *m s_V p1 + z *m (R *m s_V p1)) o.2 = \sum_(o <- xs) o.1 * lg (s_W p1) (s_mu p1 + (a + z *m R) *m s_V p1) o.2.
  apply: eq_bigr => o _. by rewrite mulmxDl addrA mulmxA.
set u := lg _ _ _. set v := \sum_(o <- xs) _. set w := lg _ _ _. set l := 2%:R^-1 * _. set q := s_ev _ _ _ _. clearbody u v w l q. move=> H.
rewrite addrAC H addrA. by [].
Qed.
(** the conditions on the configuration for the two steps *)
Definition md_ok (cf : sconfig) : bool := u_mu cf || ~~ u_V cf.
Lemma md_step M e d (p p1 : splda F e d) (cls : 'I_M.+1 -> seq (F * 'rV[F]_d)) cf s p2 (A : 'I_M.+1 -> 'M[F]_e) : log_ok ln -> posdef (s_W p) -> posdef (s_W p1) -> (forall k, nonneg (cls k)) ->
  tM s = M.+1%:R -> ty s = \sum_k s_m p (cls k) -> tPy s = \sum_k (invmx (s_L p (cls k)) + (s_m p (cls k))^T *m s_m p (cls k)) -> md_ok cf ->
  (forall k, root_of (A k) (s_L p (cls k))) -> s_MstepMD cf p1 s = ok p2 ->
  s_W p2 = s_W p1 /\ exists P a, \sum_k Ex (A k) (s_m p (cls k)) (lg 1%:M 0) <= \sum_k Ex (A k) (s_m p (cls k)) (lg P a) /\
    forall k, exists P' m', posdef P' /\ forall y, lg P a y + \sum_(o <- cls k) o.1 * lg (s_W p1) (s_mu p1 + y *m s_V p1) o.2 = s_ev ln c p2 (cls k) + lg P' m' y.
Proof.
move=> LO PW PW1 NN E1 E2 E3 MD RA. set m := fun k => s_m p (cls k). set L := fun k => s_L p (cls k). have LP : forall k, posdef (L k) by move=> k; exact: s_L_ok.
rewrite /s_MstepMD E1 E2 E3. have -> : M.+1%:R^-1 *: (\sum_k s_m p (cls k)) = mbar m by [].
have -> : M.+1%:R^-1 *: (\sum_k (invmx (s_L p (cls k)) + (s_m p (cls k))^T *m s_m p (cls k))) - (mbar m)^T *m mbar m = Sc L m (mbar m) by rewrite Sc_mbar big_split.
have U1 : (1%:M : 'M[F]_e) \in unitmx by exact: unitmx1. have I1 : invmx ((1%:M : 'M[F]_e)^T *m 1%:M) = 1%:M by rewrite trmx1 mulmx1 invmx1.
have D1 := @posdef_1 F e. have SP := Sc_pos m LP (mbar m).
move: MD. rewrite /md_ok. case UM: (u_mu cf) => /=; case UV: (u_V cf) => //= _.
- have [R ER] := (C73_cholesky SP.1).1.1 SP. have [UP [PR G]] := (C73_cholesky SP.1).2.2 _ ER. have U : R \in unitmx by exact: upper_unit.
  rewrite ER /= => -[<-]. split=> //. exists (invmx (Sc L m (mbar m))), (mbar m). split.
    apply: (@le_trans _ _ (\sum_k Ex (A k) (m k) (lg 1%:M (mbar m)))); [exact: (@best_mean _ ln c _ _ L m A RA)|exact: (@best_prec _ ln c _ _ L m A LP RA _ _ LO)].
  move=> k. rewrite -G. exact: md_change LO.1 PW1 U (NN k).
- move=> [<-]. split=> //. exists 1%:M, (mbar m). split; first exact: (@best_mean _ ln c _ _ L m A RA).
  move=> k. have := md_change (mbar m) LO.1 PW1 U1 (NN k). by rewrite I1 mul1mx.
- move=> [<-]. split=> //. exists 1%:M, 0. split=> // k. have := md_change 0 LO.1 PW1 U1 (NN k). by rewrite I1 mul1mx mul0mx addr0.
Qed.
(** ** One epoch *)
Definition exact_E {M e d} (p : splda F e d) (cls : 'I_M -> seq (F * 'rV[F]_d)) : Prop := s_mu p = 0 \/ (forall k, total (cls k) = 1).
Lemma epoch_ok M e d (p : splda F e d) (D : stats F M.+1 d) cls b cf (use_ml use_md : bool) : log_ok ln -> posdef (s_W p) -> stats_of cls D -> (forall k, nonneg (cls k)) ->
  exact_E p cls -> 0 < \sum_k total (cls k) -> diag_ok cf p -> (use_md -> md_ok cf) ->
  forall s p1 p2, s_Estep ln c p D b = ok s -> (if use_ml then s_MstepML ln cf p s else ok p) = ok p1 -> posdef (s_W p1) ->
  (if use_md then s_MstepMD cf p1 s else ok p1) = ok p2 -> s_W p2 = s_W p1 /\ \sum_k s_ev ln c p (cls k) <= \sum_k s_ev ln c p2 (cls k).
Proof.
move=> LO PW ST NN CE N0 DO MD s p1 p2 ES E1 PW1 E2. set m := fun k => s_m p (cls k). set L := fun k => s_L p (cls k). have LP : forall k, posdef (L k) by move=> k; exact: s_L_ok.
have [A RA] : exists A : 'I_M.+1 -> 'M[F]_e, forall k, root_of (A k) (L k).
  have X : forall k, exists Ak, root_of Ak (L k) by move=> k; exact: root_ex.
  exact: fin_all_exists X.
have OB : obs cls m A (s_V p) (s_mu p) (s_W p) <= obs cls m A (s_V p1) (s_mu p1) (s_W p1).
  move: E1. case: use_ml; last by move=> [<-]. move=> E1. exact: ml_obs DO RA _ _ ES E1 PW1.
have [W2 [P [a [PO HP]]]] : s_W p2 = s_W p1 /\ exists P a, \sum_k Ex (A k) (m k) (lg 1%:M 0) <= \sum_k Ex (A k) (m k) (lg P a) /\
    forall k, exists P' m', posdef P' /\ forall y, lg P a y + \sum_(o <- cls k) o.1 * lg (s_W p1) (s_mu p1 + y *m s_V p1) o.2 = s_ev ln c p2 (cls k) + lg P' m' y.
  move: E2 MD. case: use_md => E2 MD.
    have := s_estep_ok c b LO.1 PW ST NN CE. rewrite ES => -[SE].
    apply: (md_step (s := s) LO PW PW1 NN _ _ _ (MD isT) RA E2); by rewrite SE.
  case: E2 => <-. split=> //. exists 1%:M, 0. split=> // k. have [DL B] := s_bayes c LO.1 PW1 (NN k). exists (s_L p1 (cls k)), (s_m p1 (cls k)). by split.
split=> //. have H := ler_add PO OB. rewrite -subr_ge0 in H. rewrite -subr_ge0. apply: le_trans H _. rewrite /obs -!big_split /= -!sumrB. apply: ler_sum => k _.
have [_ B] := s_bayes c LO.1 PW (NN k). have [P' [m' [DP' B']]] := HP k.
have := em_step LO (LP k) DP' (RA k) B B'. rewrite {1}/s_joint !ExD. by [].
Qed.
(** one epoch of training: E step, M step (ML) if asked, minimum divergence step if asked. The log evidence of the data does not decrease.
    Conditions: the E step is exact (the mean is zero or the class weights are one), the statistics are not all zero, a diagonal W is asked only
    when W is diagonal, the minimum divergence step is done with update_mu or without update_V, and the new W is positive definite (always so
    if fullcov_W) *)
Theorem C76_em : log_ok ln -> forall M e d (p : splda F e d) (D : stats F M.+1 d) cls N_is_int cf (use_ml use_md : bool), posdef (s_W p) -> stats_of cls D -> (forall k, nonneg (cls k)) ->
  s_mu p = 0 \/ (forall k, total (cls k) = 1) -> 0 < \sum_k total (cls k) -> full_W cf \/ (exists w, s_W p = diag_mx w) -> (use_md -> u_mu cf || ~~ u_V cf) ->
  forall s p1 p2, s_Estep ln c p D N_is_int = ok s -> (if use_ml then s_MstepML ln cf p s else ok p) = ok p1 ->
  (if use_md then s_MstepMD cf p1 s else ok p1) = ok p2 -> (full_W cf \/ posdef (s_W p1)) ->
  exists v v', posdef (s_W p2) /\ (forall k, log_evidence ln c (s_joint ln c p (cls k)) (v k)) /\ (forall k, log_evidence ln c (s_joint ln c p2 (cls k)) (v' k)) /\ \sum_k v k <= \sum_k v' k.
Proof.
move=> LO M e d p D cls b cf ml md PW ST NN CE N0 DO MD s p1 p2 ES E1 E2 H.
have PW1 : posdef (s_W p1).
  case: H => // FW. move: E1. case: ml; last by move=> [<-]. move=> E1. have [_] := mean_step LO.1 PW ST NN CE N0 ES E1. case: (u_W cf); last by move=> ->. lazy zeta.
  rewrite FW => -[-> PS]. exact: posdef_inv (PS isT).
have [W2 LE] := epoch_ok LO PW ST NN CE N0 DO MD ES E1 PW1 E2. have PW2 : posdef (s_W p2) by rewrite W2.
exists (fun k => s_ev ln c p (cls k)), (fun k => s_ev ln c p2 (cls k)). split=> //. split; first by move=> k; exact: s_evidence LO.1 PW (NN k). split=> // k. exact: s_evidence LO.1 PW2 (NN k).
Qed.
(** so the ELBOs that fit reports never decrease: for full W, when all the class weights are one, or when the mean is fixed at zero *)
Theorem C76_fit : log_ok ln -> forall M e d (p : splda F e d) (D : stats F M.+1 d) cls N_is_int cf use_ml (md : seq bool), posdef (s_W p) -> stats_of cls D -> (forall k, nonneg (cls k)) ->
  (forall k, total (cls k) = 1) \/ (s_mu p = 0 /\ u_mu cf = false) -> 0 < \sum_k total (cls k) -> full_W cf -> (forall b, b \in md -> b -> u_mu cf || ~~ u_V cf) ->
  forall p' vs, s_fit_loop ln c cf use_ml md D N_is_int p = ok (p', vs) -> posdef (s_W p') /\ size vs = size md /\ sorted <=%R vs.
Proof.
move=> LO M e d p D cls b cf ml md PW ST NN CE N0 FW MD.
have G : forall (md : seq bool) (p : splda F e d), (forall b, b \in md -> b -> u_mu cf || ~~ u_V cf) -> posdef (s_W p) -> (forall k, total (cls k) = 1) \/ (s_mu p = 0 /\ u_mu cf = false) ->
  forall p' vs, s_fit_loop ln c cf ml md D b p = ok (p', vs) -> posdef (s_W p') /\ size vs = size md /\ sorted <=%R vs /\ (forall v vs', vs = v :: vs' -> v = \sum_k s_ev ln c p (cls k)).
  elim=> [|x md1 IH] q MDq PQ CQ p' vs /=; first by move=> [<- <-].
  have CE' : exact_E q cls by case: CQ => [H|[H _]]; [right|left].
  have [s [ee [E1 [E2 E3]]]] := C76_elbo c LO.1 b PQ ST NN CE'. rewrite E1 /= E2 /=.
  case F1: (if ml then s_MstepML ln cf q s else ok q) => [p1|//] /=. case F2: (if x then s_MstepMD cf p1 s else ok p1) => [p2|//] /=.
  case F3: (s_fit_loop ln c cf ml md1 D b p2) => [[r1 r2]|//] /= [<- <-].
  have PW1 : posdef (s_W p1).
    move: F1. case: ml {F3 IH} => [F1|[<-] //]. have [_] := mean_step LO.1 PQ ST NN CE' N0 E1 F1. case: (u_W cf); last by move=> ->. lazy zeta.
    rewrite FW => -[-> PS]. exact: posdef_inv (PS isT).
  have MX : x -> md_ok cf by move=> X; exact: (MDq x (mem_head _ _) X).
  have [W2 LE] := epoch_ok LO PQ ST NN CE' N0 (or_introl FW) MX E1 F1 PW1 F2.
  have CQ2 : (forall k, total (cls k) = 1) \/ (s_mu p2 = 0 /\ u_mu cf = false).
    case: CQ => [H|[H UM]]; [by left|right; split=> //]. have M1 : s_mu p1 = 0.
      move: F1. case: ml {F3 IH} => [|[<-] //]. rewrite /s_MstepML UM /=. set t1 := (if u_V cf then _ else _). case: t1 => [V|//] /=. set t2 := (if u_W cf then _ else _). case: t2 => [w|//] /= [<-]. exact: H.
    move: F2. case: x {MDq MX} => [|[<-] //]. rewrite /s_MstepMD UM /=. set t1 := (if u_V cf then _ else _). case: t1 => [V|//] /= [<-]. exact: M1.
  have PW2 : posdef (s_W p2) by rewrite W2.
  have [M5 [S5 [O5 H5]]] := IH p2 (fun b0 Hb => MDq b0 (@mem_behead _ (x :: md1) b0 Hb)) PW2 CQ2 _ _ F3.
  have EE : \sum_k ee k = \sum_k s_ev ln c q (cls k) by apply: eq_bigr => k _; apply: (log_evidence_unique (E3 k)); exact: s_evidence LO.1 PQ (NN k).
  split=> //; split; first by rewrite /= S5. split; last by move=> v vs' [<- _].
  case: r2 O5 H5 {F3 S5} => [//|v r2] /= O5 H5. by rewrite O5 andbT (H5 v r2) // EE.
move=> p' vs E. have [M5 [S5 [O5 _]]] := G md p MD PW CE p' vs E. by [].
Qed.
(** ** Success *)
Lemma Rt_pos K e d (cls : 'I_K -> seq (F * 'rV[F]_d)) (L : 'I_K -> 'M[F]_e) (m : 'I_K -> 'rV[F]_e) : (forall k, posdef (L k)) -> (forall k, nonneg (cls k)) ->
  0 < \sum_k total (cls k) -> posdef (Rt cls L m).
Proof.
move=> LP NN N0. split; first exact: (Rt_semi m LP NN).1. move=> v V. rewrite Rt_sum form_sumP.
have TE : forall k, 0 <= total (cls k) by move=> k; exact: total_nonneg.
set q := fun k => form ((ut (m k))^T *m ut (m k) + block_mx (invmx (L k)) 0 0 0) v v. have Q0 : forall k, 0 < q k.
  move=> k. rewrite /q formPD. have E1 : form ((ut (m k))^T *m ut (m k)) v v = form 1%:M (v *m (ut (m k))^T) (v *m (ut (m k))^T) by rewrite /form mulmx1 trmx_mul trmxK !mulmxA.
  have E2 : form (block_mx (invmx (L k)) 0 0 0) v v = form (invmx (L k)) (lsubmx v) (lsubmx v).
    by rewrite /form -[v]hsubmxK tr_row_mx mul_row_block mul_row_col !mulmx0 !addr0 mul0mx addr0 row_mxKl.
  rewrite E1 E2. have S1 := (posdef_semi (posdef_1 F 1)).2. have S2 := (posdef_semi (posdef_inv (LP k))).2. case: (eqVneq (lsubmx v) 0) => V1.
    rewrite V1 form0l addr0. apply: (posdef_1 F 1).2. have -> : v *m (ut (m k))^T = rsubmx v by rewrite -{1}[v]hsubmxK V1 /ut tr_row_mx mul_row_col mul0mx add0r trmx1 mulmx1.
    apply: contra V => /eqP V2. by rewrite -[v]hsubmxK V1 V2 row_mx0.
  apply: ltr_paddl; first exact: S1. exact: (posdef_inv (LP k)).2.
have -> : \sum_k form (total (cls k) *: ((ut (m k))^T *m ut (m k) + block_mx (invmx (L k)) 0 0 0)) v v = \sum_k total (cls k) * q k by apply: eq_bigr => k _; rewrite formPZ.
rewrite lt_def. apply/andP; split; last by apply: sumr_ge0 => k _; apply: mulr_ge0 => //; exact: ltW.
apply: contraTneq N0 => /eqP. rewrite psumr_eq0; last by move=> k _; apply: mulr_ge0 => //; exact: ltW.
move=> /allP H. rewrite big1 ?ltxx // => k _. have := H k (mem_index_enum _). by rewrite /= mulf_eq0 (gt_eqF (Q0 k)) orbF => /eqP.
Qed.
Lemma mean_ok M e d (p : splda F e d) (D : stats F M d) cls b cf s : is_log ln -> posdef (s_W p) -> stats_of cls D -> (forall k, nonneg (cls k)) ->
  exact_E p cls -> 0 < \sum_k total (cls k) -> u_W cf = false -> s_Estep ln c p D b = ok s -> exists p', s_MstepML ln cf p s = ok p'.
Proof.
move=> LN PW ST NN CE N0 UW ES. have := s_estep_ok c b LN PW ST NN CE. rewrite ES => -[{ES s}->].
set L := fun k => s_L p (cls k). set m := fun k => s_m p (cls k).
have LP : forall k, posdef (L k) by move=> k; exact: s_L_ok. have RP := Rt_pos m LP NN N0. rewrite /s_MstepML /= -/(Rt cls L m) -/(Ct cls m) UW.
have [r [E _]] := (C73_invert_pdmat LN false RP.1).2 RP.
case UM: (u_mu cf) => /=; case UV: (u_V cf) => /=; rewrite ?E /=; try by eexists.
set R := \sum_k _ *: (_ + _). have RB : Rt cls L m = block_mx R (\sum_k total (cls k) *: m k)^T (\sum_k total (cls k) *: m k) (\sum_k total (cls k))%:M by [].
have R0 : posdef R.
  split; first by have := congr1 ulsubmx RP.1; rewrite RB tr_block_mx !block_mxKul.
  move=> v V. have := RP.2 (row_mx v 0). rewrite RB /form tr_row_mx mul_row_block mul_row_col trmx0 !mulmx0 !mul0mx !addr0. apply.
  apply: contra V => /eqP E0. have := congr1 lsubmx E0. by rewrite row_mxKl linear0 => ->.
have [r' [E' _]] := (C73_invert_pdmat LN false R0.1).2 R0. rewrite E' /=. by eexists.
Qed.
Lemma md_found M e d (p p1 : splda F e d) (cls : 'I_M.+1 -> seq (F * 'rV[F]_d)) cf s : posdef (s_W p) -> (forall k, nonneg (cls k)) ->
  tM s = M.+1%:R -> ty s = \sum_k s_m p (cls k) -> tPy s = \sum_k (invmx (s_L p (cls k)) + (s_m p (cls k))^T *m s_m p (cls k)) -> exists p2, s_MstepMD cf p1 s = ok p2.
Proof.
move=> PW NN E1 E2 E3. set m := fun k => s_m p (cls k). set L := fun k => s_L p (cls k). have LP : forall k, posdef (L k) by move=> k; exact: s_L_ok.
rewrite /s_MstepMD E1 E2 E3. have -> : M.+1%:R^-1 *: (\sum_k s_m p (cls k)) = mbar m by [].
have -> : M.+1%:R^-1 *: (\sum_k (invmx (s_L p (cls k)) + (s_m p (cls k))^T *m s_m p (cls k))) - (mbar m)^T *m mbar m = Sc L m (mbar m) by rewrite Sc_mbar big_split.
have SP := Sc_pos m LP (mbar m). have [R ER] := (C73_cholesky SP.1).1.1 SP. rewrite ER. case: (u_V cf); by eexists.
Qed.
(** training with a fixed W always succeeds *)
Theorem C76_fit_total : log_ok ln -> forall M e d (p : splda F e d) (D : stats F M.+1 d) cls N_is_int cf use_ml (md : seq bool), posdef (s_W p) -> stats_of cls D -> (forall k, nonneg (cls k)) ->
  (forall k, total (cls k) = 1) \/ (s_mu p = 0 /\ u_mu cf = false) -> 0 < \sum_k total (cls k) -> u_W cf = false ->
  exists p' vs, s_fit_loop ln c cf use_ml md D N_is_int p = ok (p', vs) /\ s_W p' = s_W p.
Proof.
move=> LO M e d p D cls b cf ml md PW ST NN CE N0 UW. elim: md p PW CE => [|x md IH] q PQ CQ /=; first by exists q, [::].
have CE' : exact_E q cls by case: CQ => [H|[H _]]; [right|left].
have [s [ee [E1 [E2 E3]]]] := C76_elbo c LO.1 b PQ ST NN CE'. rewrite E1 /= E2 /=.
have [p1 [F1 [W1 MU1]]] : exists p1, (if ml then s_MstepML ln cf q s else ok q) = ok p1 /\ s_W p1 = s_W q /\ (u_mu cf = false -> s_mu p1 = s_mu q).
  case: ml {IH}; last by exists q. have [p1 F1] := mean_ok LO.1 PQ ST NN CE' N0 UW E1. exists p1. split=> //. have [_] := mean_step LO.1 PQ ST NN CE' N0 E1 F1. rewrite UW => WE. split=> //.
  move=> UM. move: F1. rewrite /s_MstepML UM UW /=. set t1 := (if u_V cf then _ else _). case: t1 => [V|//] /= [<-]. by [].
rewrite F1 /=. have [p2 [F2 [W2 MU2]]] : exists p2, (if x then s_MstepMD cf p1 s else ok p1) = ok p2 /\ s_W p2 = s_W p1 /\ (u_mu cf = false -> s_mu p2 = s_mu p1).
  case: x; last by exists p1. have := s_estep_ok c b LO.1 PQ ST NN CE'. rewrite E1 => -[SE]. have [||| p2 F2] := @md_found M e d q p1 cls cf s PQ NN; try by rewrite SE.
  exists p2. split=> //. move: F2. rewrite /s_MstepMD. set t1 := (if u_V cf then _ else _). case: t1 => [V|//] /= [<-] /=. split=> // ->. by [].
rewrite F2 /=. have PW2 : posdef (s_W p2) by rewrite W2 W1. have CQ2 : (forall k, total (cls k) = 1) \/ (s_mu p2 = 0 /\ u_mu cf = false).
  case: CQ => [H|[H UM]]; [by left|right; split=> //]. by rewrite MU2 // MU1.
have [p' [vs [E WE]]] := IH p2 PW2 CQ2. rewrite E /=. exists p', (\sum_k ee k :: vs). split=> //. by rewrite WE W2.
Qed.
End P.
Print Assumptions C76_em. Print Assumptions C76_fit. Print Assumptions C76_fit_total.
