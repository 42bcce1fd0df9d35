(** C117: the minimum divergence step of the PLDA with a channel factor (plda.py:346-371). *)
From Verif Require Import RingF LinAlg LinTrans LinTransProps LinAlgProps GaussLa Frplda FrpldaProps FrpldaEm FrpldaCex Splda SpldaProps SpldaEm PldaProps PldaFit PldaFitProps.
Set Warnings "-notation-overridden,-ambiguous-paths".
From mathcomp Require Import all_ssreflect all_algebra.
Set Implicit Arguments. Unset Strict Implicit. Unset Printing Implicit Defensive.
Import Order.TTheory GRing.Theory Num.Theory.
Local Open Scope ring_scope.

Section P.
Variable F : rcfType.
Add Ring FRing' : (F_ring F). Add Ring FZRing' : (F_zring F).
Variable ln : F -> F.
Notation total := FrpldaProps.total. Notation over := PldaFitProps.over.
Lemma chol_eq n (S R : 'M[F]_n) : S^T = S -> cholesky S = ok R -> R^T *m R = S /\ R \in unitmx.
Proof. move=> SY E. have [U [PO G]] := (C73_cholesky SY).2.2 _ E. split=> //. exact: upper_unit. Qed.
Lemma over_lin K e f d (p : gplda F e f d) (cls : 'I_K -> seq (F * 'rV[F]_d)) A Az (s : gstats F e f d) G m : expected p cls A Az s ->
  over p cls A Az (fun x y z => z - y *m G - m) = hRz1 s - hRy1 s *m G - hN s *: m.
Proof.
move=> [-> [_ [_ [E1 [_ [_ [E2 _]]]]]]]. rewrite E1 E2 (over_B p cls A Az (fun x y z => z - y *m G) (fun _ _ _ => m)) (over_B p cls A Az (fun x y z => z) (fun x y z => y *m G)) (over_r p cls A Az G (fun x y z => y)).
congr (_ - _). rewrite (over_x p cls A Az (fun _ => m)) scaler_suml. apply: eq_bigr => k _. by rewrite -scaler_suml.
Qed.
(** with all the updates: the new parameters are the old ones after a change of the factors, y = my + y'Cy and z = yH^T + mz + z'Cz. y' has, on the average over the
    classes, the moments of the prior under the posterior of p: mean zero and covariance one; z' has mean zero, covariance one and no correlation with y on the average over the observations *)
Theorem C117_MstepMD : is_log ln -> forall K e f d (p p' : gplda F e f d) (cls : 'I_K -> seq (F * 'rV[F]_d)) A Az cf s,
  expected p cls A Az s -> hM s = K%:R -> hy s = \sum_k ExM (A k) (py p (cls k)).1 (fun y => y) -> hPy s = \sum_k ExM (A k) (py p (cls k)).1 (fun y => y^T *m y) ->
  0 < \sum_k total (cls k) -> v_mu cf -> v_V cf -> v_U cf -> g_MstepMD ln cf p s = ok p' ->
  exists (my : 'rV[F]_e) (Cy : 'M[F]_e) (H : 'M[F]_(f, e)) (mz : 'rV[F]_f) (Cz : 'M[F]_f), g_D p' = g_D p /\ Cy \in unitmx /\ Cz \in unitmx /\
  (forall y' z', let y := my + y' *m Cy in let z := y *m H^T + mz + z' *m Cz in g_mu p' + y' *m g_V p' + z' *m g_U p' = g_mu p + y *m g_V p + z *m g_U p) /\
  K%:R^-1 *: (\sum_k ExM (A k) (py p (cls k)).1 (fun y => y)) = my /\
  K%:R^-1 *: (\sum_k ExM (A k) (py p (cls k)).1 (fun y => y^T *m y)) - my^T *m my = Cy^T *m Cy /\
  over p cls A Az (fun x y z => z - y *m H^T - mz) = 0 /\
  over p cls A Az (fun x y z => y^T *m (z - y *m H^T - mz)) = 0 /\
  over p cls A Az (fun x y z => (z - y *m H^T - mz)^T *m (z - y *m H^T - mz)) = (\sum_k total (cls k)) *: (Cz^T *m Cz).
Proof.
move=> LN K e f d p p' cls A Az cf s ES HM HY HPY N0 UM UV UU. rewrite /g_MstepMD UM UV UU.
have NE : hN s != 0 by case: (ES) => -> _; rewrite gt_eqF.
have RyS : (hRy s)^T = hRy s by case: (ES) => [_ [_ [_ [_ [-> _]]]]]; rewrite -over_tr; apply: over_ext => x y z; rewrite trmx_mul trmxK.
have RzS : (hRz s)^T = hRz s by case: (ES) => [_ [_ [_ [_ [_ [_ [_ [-> _]]]]]]]]; rewrite -over_tr; apply: over_ext => x y z; rewrite trmx_mul trmxK.
have PyS : (hPy s)^T = hPy s by rewrite HPY trmx_sum; apply: eq_bigr => k _; rewrite -ExM_tr; apply: ExM_ext => y; rewrite trmx_mul trmxK.
have SQ : forall n (v : 'rV[F]_n), (v^T *m v)^T = v^T *m v by move=> n v; rewrite trmx_mul trmxK.
set my := (hM s)^-1 *: hy s. case E1: (cholesky _) => [Cy|//] /=. have [|Y1 Y2] := chol_eq _ E1; first by rewrite linearB /= SQ linearZ /= PyS.
case E2: (invert_pdmat ln _ true) => [r|//] /=. have SS : (hRy s - (hN s)^-1 *: ((hRy1 s)^T *m hRy1 s))^T = hRy s - (hN s)^-1 *: ((hRy1 s)^T *m hRy1 s) by rewrite linearB /= RyS linearZ /= SQ.
have [PD _] := inv_found LN SS E2. have [r' [E2' [RT _]]] := (C73_invert_pdmat LN true SS).2 PD. have {E2'} RR : r' = r by move: E2'; rewrite E2 => -[]. rewrite {r'}RR in RT.
set H := p_right r _. have HE := RT _ ((hRyz s)^T - (hN s)^-1 *: ((hRz1 s)^T *m hRy1 s)). rewrite -/H in HE. clearbody H.
set mz := (hN s)^-1 *: (hRz1 s - _). case E3: (cholesky _) => [Cz|//] /=. case: (compute_aux ln _) => [aux|//] [<-] /=.
have RS : forall X : 'M[F]_f, (hRz s - X - X^T + H *m hRy s *m H^T)^T = hRz s - X - X^T + H *m hRy s *m H^T.
  move=> X. rewrite linearD /= !linearB /= trmxK RzS !trmx_mul trmxK RyS !mulmxA. congr (_ + _). by rewrite -!addrA [- X + _]addrC.
have [|Z1 Z2] := chol_eq _ E3; first by rewrite linearB /= SQ linearZ /= RS.
have OL : over p cls A Az (fun x y z => z - y *m H^T - mz) = 0 by rewrite (over_lin _ _ ES) /mz scalerA divff // scale1r subrr.
exists my, Cy, H, mz, Cz. split=> //. split=> //. split=> //. split.
  move=> y' z'. rewrite !(mulmxDl, mulmxDr) !mulmxA. move: (my *m _) (my *m _ *m _) (mz *m _) (y' *m _ *m g_V p) (y' *m _ *m _ *m g_U p) (z' *m _ *m _) => a a2 b u u2 w.
  apply/matrixP => i j. rewrite !mxE. have Q : forall m a a2 b u u2 w : F, m + (a + a2 + b) + (u + u2) + w = m + (a + u) + (a2 + u2 + b + w) by fr. exact: Q.
split; first by rewrite /my HM HY. split; first by rewrite Y1 HM HPY. split=> //.
have ER : hRy1 s = over p cls A Az (fun x y z => y) by case: ES => [_ [_ [_ [-> _]]]].
have EZ : hRz1 s = over p cls A Az (fun x y z => z) by case: ES => [_ [_ [_ [_ [_ [_ [-> _]]]]]]].
have EY : hRy s = over p cls A Az (fun x y z => y^T *m y) by case: ES => [_ [_ [_ [_ [-> _]]]]].
have EYZ : hRyz s = over p cls A Az (fun x y z => y^T *m z) by case: ES => [_ [_ [_ [_ [_ [_ [_ [_ [-> _]]]]]]]]].
have EZZ : hRz s = over p cls A Az (fun x y z => z^T *m z) by case: ES => [_ [_ [_ [_ [_ [_ [_ [-> _]]]]]]]].
have OY : over p cls A Az (fun x y z => y^T *m (z - y *m H^T - mz)) = 0.
  have -> : over p cls A Az (fun x y z => y^T *m (z - y *m H^T - mz)) = over p cls A Az (fun x y z => y^T *m z - (y^T *m y) *m H^T - y^T *m mz) by apply: over_ext => x y z; rewrite !mulmxBr mulmxA.
  rewrite (over_B p cls A Az (fun x y z => y^T *m z - (y^T *m y) *m H^T) (fun x y z => y^T *m mz)) (over_B p cls A Az (fun x y z => y^T *m z) (fun x y z => (y^T *m y) *m H^T)).
  rewrite (over_r p cls A Az H^T (fun x y z => y^T *m y)) (over_r p cls A Az mz (fun x y z => y^T)) (over_tr p cls A Az (fun x y z => y)) -EYZ -EY -ER.
  have := congr1 (fun X : 'M[F]_(f, e) => X^T) HE. rewrite trmx_mul SS mulmxBl linearB /= trmxK linearZ /= trmx_mul trmxK -scalemxAl => HT.
  rewrite /mz -scalemxAr mulmxBr scalerBr !mulmxA. move: HT => /eqP. rewrite subr_eq => /eqP ->. apply/matrixP => i j. rewrite !mxE. 
  have Q : forall a b c : F, a - (a - b + c) - (b - c) = 0 by fr. exact: Q.
split=> //. rewrite Z1. case: (ES) => <- _. 
have -> : over p cls A Az (fun x y z => (z - y *m H^T - mz)^T *m (z - y *m H^T - mz)) = over p cls A Az (fun x y z => z^T *m z - (y^T *m z)^T *m H^T - ((y^T *m z)^T *m H^T)^T + H *m (y^T *m y) *m H^T - mz^T *m (z - y *m H^T - mz) - (z - y *m H^T)^T *m mz).
  apply: over_ext => x y z. set u := z - y *m H^T. rewrite [(u - mz)^T]linearB /= mulmxBl mulmxBr -!addrA [- (u^T *m mz) + _]addrC !addrA. do 2 congr (_ - _). by rewrite /u sq_diff trmxK trmx_mul trmxK !trmx_mul !trmxK !mulmxA.
rewrite (over_B p cls A Az (fun x y z => z^T *m z - (y^T *m z)^T *m H^T - ((y^T *m z)^T *m H^T)^T + H *m (y^T *m y) *m H^T - mz^T *m (z - y *m H^T - mz)) (fun x y z => (z - y *m H^T)^T *m mz)).
rewrite (over_B p cls A Az (fun x y z => z^T *m z - (y^T *m z)^T *m H^T - ((y^T *m z)^T *m H^T)^T + H *m (y^T *m y) *m H^T) (fun x y z => mz^T *m (z - y *m H^T - mz))).
rewrite (over_D p cls A Az (fun x y z => z^T *m z - (y^T *m z)^T *m H^T - ((y^T *m z)^T *m H^T)^T) (fun x y z => H *m (y^T *m y) *m H^T)).
rewrite (over_B p cls A Az (fun x y z => z^T *m z - (y^T *m z)^T *m H^T) (fun x y z => ((y^T *m z)^T *m H^T)^T)) (over_B p cls A Az (fun x y z => z^T *m z) (fun x y z => (y^T *m z)^T *m H^T)).
rewrite (over_r p cls A Az H^T (fun x y z => H *m (y^T *m y))) (over_l p cls A Az H (fun x y z => y^T *m y)) (over_tr p cls A Az (fun x y z => (y^T *m z)^T *m H^T)).
rewrite (over_r p cls A Az H^T (fun x y z => (y^T *m z)^T)) (over_tr p cls A Az (fun x y z => y^T *m z)) (over_l p cls A Az mz^T (fun x y z => z - y *m H^T - mz)) OL mulmx0 subr0.
rewrite (over_r p cls A Az mz (fun x y z => (z - y *m H^T)^T)) (over_tr p cls A Az (fun x y z => z - y *m H^T)) (over_B p cls A Az (fun x y z => z) (fun x y z => y *m H^T)) (over_r p cls A Az H^T (fun x y z => y)) -EZ -ER -EZZ -EYZ -EY.
have -> : hRz1 s - hRy1 s *m H^T = hN s *: mz by rewrite /mz scalerA divff // scale1r.
clearbody mz. by rewrite scalerBr scalerA divff // scale1r [(hN s *: _)^T]linearZ /= scalemxAl.
Qed.
End P.
Print Assumptions C117_MstepMD.
