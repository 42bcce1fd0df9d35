(** PLDA with a channel factor (C77: plda.py), sampling (splda.py:383-397, plda.py:529-544) and counterexamples for both classes. *)
From Verif Require Import RingF LinAlg LinTrans LinTransProps LinAlgProps GaussLa Frplda FrpldaProps FrpldaEm FrpldaCex Splda SpldaProps SpldaEm.
Set Warnings "-notation-overridden,-ambiguous-paths".
From mathcomp Require Import all_ssreflect all_algebra.
Set Implicit Arguments. Unset Strict Implicit. Unset Printing Implicit Defensive.
Import Order.TTheory GRing.Theory Num.Theory.
Local Open Scope ring_scope.

Section P.
Variable F : rcfType.
Add Ring FRing' : (F_ring F). Add Ring FZRing' : (F_zring F). Add Field FField' : (F_field F). Add Field FZField' : (F_zfield F).
Variable ln : F -> F.
Variable c : F.
Notation lg := (log_gauss ln c).
Notation total := FrpldaProps.total.
Notation half := (Frplda.half F).
(** ** Specification *)
(** all the entries of D are positive *)
Definition g_ok {e f d} (p : gplda F e f d) : Prop := forall j, 0 < g_D p 0 j.
(** given y: z is a standard Gaussian and x is Gaussian with mean mu + yV + zU and diagonal precision D *)
Definition g_xz {e f d} (p : gplda F e f d) (y : 'rV[F]_e) (x : 'rV[F]_d) (z : 'rV[F]_f) : F := lg 1%:M 0 z + lg (diag_mx (g_D p)) (g_mu p + y *m g_V p + z *m g_U p) x.
(** q is the model without z that gives x the same density given y: z integrated out *)
Definition z_integrated {e f d} (p : gplda F e f d) (q : splda F e d) : Prop :=
  s_mu q = g_mu p /\ s_V q = g_V p /\ posdef (s_W q) /\ forall y x, log_evidence ln c (g_xz p y x) (lg (s_W q) (s_mu q + y *m s_V q) x).
(** ** Proofs *)
Lemma det_sylv n f (A : 'M[F]_(n, f)) (B : 'M[F]_(f, n)) : \det (1%:M + A *m B) = \det (1%:M + B *m A).
Proof.
have E1 : (block_mx 1%:M (- A) B 1%:M : 'M[F]_(n + f)) = block_mx 1%:M 0 B 1%:M *m block_mx 1%:M (- A) 0 (1%:M + B *m A).
  by rewrite mulmx_block ?mul1mx ?mul0mx ?mulmx1 ?mulmx0 ?addr0 mulmxN [- _ + _]addrC addrK.
have E2 : (block_mx 1%:M (- A) B 1%:M : 'M[F]_(n + f)) = block_mx (1%:M + A *m B) (- A) 0 1%:M *m block_mx 1%:M 0 B 1%:M.
  by rewrite mulmx_block ?mul1mx ?mul0mx ?mulmx1 ?mulmx0 ?add0r mulNmx addrK.
have := congr1 determinant E1. rewrite {1}E2 !det_mulmx !det_ublock !det_lblock !det1 !mul1r !mulr1. by [].
Qed.
Lemma diag_pos d (w : 'rV[F]_d) : (forall j, 0 < w 0 j) -> posdef (diag_mx w).
Proof.
move=> H. split; first exact: tr_diag_mx. move=> v V. rewrite /form mul_mx_diag mxE.
have [j V0] : exists j, v 0 j != 0 by apply/existsP; apply: contraR V; rewrite negb_exists => /forallP A; apply/eqP/rowP => j; rewrite mxE; apply/eqP; move: (A j); rewrite negbK.
rewrite (bigD1 j) //= !mxE. apply: ltr_paddr.
  apply: sumr_ge0 => i _. rewrite !mxE mulrAC -expr2. apply: mulr_ge0; [exact: sqr_ge0|exact: ltW].
rewrite mulrAC -expr2. apply: mulr_gt0 => //. by rewrite lt_def sqr_ge0 andbT expf_eq0.
Qed.
Section Aux.
Variables (e f d : nat) (p : gplda F e f d).
Hypothesis (OK : g_ok p).
Notation Dm := (diag_mx (g_D p)).
Notation U := (g_U p).
Definition Lz : 'M[F]_f := 1%:M + U *m (Dm *m U^T).
Definition Wg : 'M[F]_d := Dm - Dm *m U^T *m invmx Lz *m (U *m Dm).
Definition iWg : 'M[F]_d := diag_mx (\row_j (g_D p 0 j)^-1) + U^T *m U.
Lemma Dm_pos : posdef Dm. Proof. exact: diag_pos. Qed.
Lemma Dm_inv : invmx Dm = diag_mx (\row_j (g_D p 0 j)^-1). Proof. apply: unit_diag. exact: posdef_unit Dm_pos. Qed.
Lemma Lz_pos : posdef Lz.
Proof. have := lp_ok (semi_congr U Dm_pos) ler01. by rewrite /lp scale1r. Qed.
Lemma iWg_pos : posdef iWg.
Proof.
rewrite /iWg -Dm_inv. apply: posdefD; first exact: posdef_inv Dm_pos. have := semi_congr U^T (posdef_1 F f). by rewrite trmxK mul1mx.
Qed.
Lemma woodbury : Wg = invmx iWg.
Proof.
have UD := posdef_unit Dm_pos. have UL := posdef_unit Lz_pos. have UI := posdef_unit iWg_pos.
suff H : iWg *m Wg = 1%:M by rewrite -[LHS](mulKmx UI) H mulmx1.
rewrite /Wg /iWg -Dm_inv mulmxBr !mulmxDl mulVmx // -!mulmxA mulKmx // [U^T *m (U *m (Dm *m (U^T *m _)))](_ : _ = U^T *m ((Lz - 1%:M) *m (invmx Lz *m (U *m Dm)))); last by rewrite /Lz [1%:M + _]addrC addrK !mulmxA.
rewrite mulmxBl mul1mx mulmxBr mulKVmx //. set a := U^T *m (U *m Dm). set b := U^T *m _. by rewrite [b + _]addrC subrK addrK.
Qed.
Lemma Wg_pos : posdef Wg. Proof. rewrite woodbury. exact: posdef_inv iWg_pos. Qed.
Lemma logD (LN : is_log ln) : ln (\det Dm) = \sum_j ln (g_D p 0 j).
Proof. rewrite det_diag. exact: ln_prod. Qed.
Lemma Wg_det (LN : is_log ln) : ln (\det Wg) = \sum_j ln (g_D p 0 j) - ln (\det Lz).
Proof.
have PD := det_pos Dm_pos. have PL := det_pos Lz_pos. have E : iWg = invmx Dm *m (1%:M + Dm *m U^T *m U).
  by rewrite mulmxDr mulmx1 -mulmxA mulKmx ?(posdef_unit Dm_pos) // /iWg Dm_inv.
rewrite woodbury ln_det_inv //; last exact: iWg_pos. rewrite E det_mulmx det_sylv -/Lz LN //; last by rewrite det_inv invr_gt0.
by rewrite (ln_det_inv LN Dm_pos) opprD opprK logD.
Qed.
Definition g_splda : splda F e d := MkSplda (g_mu p) (g_V p) Wg.
Lemma aux_ok : is_log ln -> compute_aux ln p = ok (Aux Wg (Wg *m (g_V p)^T) (s_VV g_splda) (ln (\det Lz))).
Proof.
move=> LN. have DU : (U *m Dm)^T = Dm *m U^T by rewrite trmx_mul tr_diag_mx.
rewrite /compute_aux DU -mulmxA -/Lz. have [r [E [RT [_ [_ [LD _]]]]]] := (C73_invert_pdmat LN true Lz_pos.1).2 Lz_pos. rewrite E /= LD.
have PR : p_right r (Dm *m U^T) = Dm *m U^T *m invmx Lz by rewrite -[LHS](mulmxK (posdef_unit Lz_pos)) RT.
have VW : (g_V p *m Dm)^T - p_right r (Dm *m U^T) *m (g_V p *m (Dm *m U^T))^T = Wg *m (g_V p)^T.
  rewrite PR !trmx_mul trmxK tr_diag_mx /Wg mulmxBl !mulmxA. by [].
by rewrite VW PR.
Qed.
Lemma z_lemma : is_log ln -> z_integrated p g_splda.
Proof.
move=> LN. split=> //; split=> //; split; first exact: Wg_pos. move=> y x. set q := MkSplda (g_mu p + y *m g_V p) U Dm.
have NN : nonneg [:: (1 : F, x)] by move=> o; rewrite inE => /eqP ->; exact: ler01. have := s_evidence c LN (Dm_pos : posdef (s_W q)) NN.
have -> : s_ev ln c q [:: (1, x)] = lg Wg (g_mu p + y *m g_V p) x.
  rewrite /s_ev /s_gam /total /first !big_seq1 /= !scale1r !mul1r /log_gauss. have -> : lp (s_VV q) 1 = Lz by rewrite /lp scale1r.
  rewrite Wg_det // logD //. set dl := x - _. have -> : form Wg dl dl = form Dm dl dl - form (invmx Lz) (dl *m (Dm *m U^T)) (dl *m (Dm *m U^T)).
    rewrite /form /Wg mulmxBr mulmxBl !trmx_mul trmxK tr_diag_mx !mulmxA. by rewrite [LHS]mxE [X in _ + X]mxE.
  set a := \sum_j _. set l := ln _. set u := form _ _ _. set v := form _ _ _. have Q : forall h a k u l v : F, h * (a - k - u - l + v) = h * (a - l - k - (u - v)) by fr. exact: Q.
rewrite /g_splda /= => -[P [m [DP H]]]. exists P, m. split=> // z. rewrite -H /s_joint big_seq1 /= mul1r. by [].
Qed.
Lemma g_posterior_eq M (D : stats F M d) b : is_log ln -> g_compute_py_g_x ln c p D b = s_compute_py_g_x ln c g_splda D b.
Proof. move=> LN. by rewrite /g_compute_py_g_x aux_ok. Qed.
End Aux.
(** one against one: every score is the log likelihood ratio of the two vectors under the model with z integrated out *)
Theorem C77_1vs1 : is_log ln -> forall n1 n2 e f d (p : gplda F e f d) (x1 : 'M[F]_(n1, d)) (x2 : 'M[F]_(n2, d)), g_ok p ->
  exists q s, z_integrated p q /\ g_llr_1vs1 ln p x1 x2 = ok s /\ forall i j, s_is_llr ln c q [:: (1, row i x1)] [:: (1, row j x2)] (s i j).
Proof.
move=> LN n1 n2 e f d p x1 x2 OK. have D := Wg_pos OK. have [s [E H]] := C76_1vs1 c LN x1 x2 (D : posdef (s_W (g_splda p))).
exists (g_splda p), s. split; first exact: z_lemma. split=> //. by rewrite /g_llr_1vs1 aux_ok.
Qed.
(** compute_py_g_x returns the posteriors of y under the model with z integrated out, provided the mean is zero or the class weights are one *)
Theorem C77_posterior : is_log ln -> forall M e f d (p : gplda F e f d) (D : stats F M d) cls N_is_int, g_ok p -> stats_of cls D -> (forall k, nonneg (cls k)) ->
  g_mu p = 0 \/ (forall k, total (cls k) = 1) ->
  exists q r, z_integrated p q /\ g_compute_py_g_x ln c p D N_is_int = ok r /\
  (forall k, exists v, bayes ln c (s_joint ln c q (cls k)) v (invmx (spSigma r k)) (row k (spy r)) /\ splogpy r 0 k = lg (invmx (spSigma r k)) (row k (spy r)) 0) /\
  spPy r = \sum_k spSigma r k /\ spRy r = \sum_k total (cls k) *: spSigma r k.
Proof.
move=> LN M e f d p D cls b OK ST NN CE. have W0 := Wg_pos OK. have [r [E H]] := C76_posterior c LN b (W0 : posdef (s_W (g_splda p))) ST NN CE.
exists (g_splda p), r. split; first exact: z_lemma. split=> //. by rewrite g_posterior_eq.
Qed.
(** the ELBO is the log evidence of the data under that model *)
Theorem C77_elbo : is_log ln -> forall M e f d (p : gplda F e f d) (D : stats F M d) cls N_is_int, g_ok p -> stats_of cls D -> (forall k, nonneg (cls k)) ->
  g_mu p = 0 \/ (forall k, total (cls k) = 1) ->
  exists q v, z_integrated p q /\ g_elbo ln c p D N_is_int = ok (\sum_k v k) /\ forall k, log_evidence ln c (s_joint ln c q (cls k)) (v k).
Proof.
move=> LN M e f d p D cls b OK ST NN CE. have W0 : posdef (s_W (g_splda p)) := Wg_pos OK. have [s [v [E [EL H]]]] := C76_elbo c LN b W0 ST NN CE.
exists (g_splda p), v. split; first exact: z_lemma. split=> //. rewrite -EL /g_elbo aux_ok // /= g_posterior_eq //. move: E. rewrite /s_Estep. case: (s_compute_py_g_x ln c (g_splda p) D b) => [r|//] /= [<-].
rewrite /s_elbo (logdet_ok LN W0) /= Wg_det //.
Qed.
(** the two conditional log densities *)
Theorem C77_log_prob : is_log ln -> forall e f d (p : gplda F e f d) x y z, g_ok p ->
  g_log_probx_g_yz ln c p x y z = lg (diag_mx (g_D p)) (g_mu p + y *m g_V p + z *m g_U p) x /\
  exists v, g_log_probx_g_y ln c p x y = ok v /\ log_evidence ln c (g_xz p y x) v.
Proof.
move=> LN e f d p x y z OK. split.
  rewrite /g_log_probx_g_yz /log_gauss /Frplda.half (logD OK LN). have -> : x - (g_mu p + y *m g_V p + z *m g_U p) = x - g_mu p - y *m g_V p - z *m g_U p by rewrite !opprD !addrA.
  set dl := _ - z *m _. have -> : form (diag_mx (g_D p)) dl dl = \sum_j g_D p 0 j * dl 0 j ^+ 2.
    rewrite /form mul_mx_diag mxE. apply: eq_bigr => j _. rewrite !mxE expr2. have Q : forall a b : F, a * b * a = b * (a * a) by fr. exact: Q.
  have Q : forall h k a b : F, h * (- k + a - b) = h * (a - k - b) by fr. exact: Q.
have IP := iWg_pos OK. have [r [E [RT [_ [_ [LD _]]]]]] := (C73_invert_pdmat LN true IP.1).2 IP. rewrite /g_log_probx_g_y -/(iWg p) E /= LD.
have [_ [_ [_ H]]] := z_lemma OK LN. have {}H := H y x. eexists. split; first by []. rewrite /= in H.
have -> : x - g_mu p - y *m g_V p = x - (g_mu p + y *m g_V p) by rewrite opprD addrA. set dl := x - _ in H *.
have -> : p_right r dl = dl *m Wg p by rewrite -[LHS](mulmxK (posdef_unit IP)) RT woodbury.
suff -> : half * (- (d%:R * c) - ln (\det (iWg p)) - (dl *m Wg p *m dl^T) 0 0) = lg (Wg p) (g_mu p + y *m g_V p) x by [].
rewrite /log_gauss -/dl woodbury // (ln_det_inv LN IP) -/(form _ _ _) /Frplda.half. set u := form _ _ _. set l := ln _. have Q : forall h k l u : F, h * (- k - l - u) = h * (- l - k - u) by fr. exact: Q.
Qed.
(** ** Sampling *)
(** a map takes standard Gaussian numbers to a Gaussian variable: the densities differ by a constant factor *)
Definition pushes {d} (g : 'rV[F]_d -> 'rV[F]_d) (P : 'M[F]_d) (m : 'rV[F]_d) : Prop := exists k, forall z, lg P m (g z) = k + lg 1%:M 0 z.
(** splda.py: given the class variable, the samples are Gaussian with mean mu + yV and precision W *)
Theorem C76_sample : is_log ln -> forall e d (p : splda F e d), posdef (s_W p) ->
  exists g : 'rV[F]_e -> 'rV[F]_d -> 'rV[F]_d, (forall y, pushes (g y) (s_W p) (s_mu p + y *m s_V p)) /\
  forall C K (z : 'I_C -> 'I_K -> 'rV[F]_d) y, exists r, s_sample ln p z y = ok r /\ forall i j, r i j = g (y i) (z i j).
Proof.
move=> LN e d p D. have [r [E [_ [_ [IV _]]]]] := (C73_invert_pdmat LN false D.1).2 D.
have PI : p_inv r = invmx (s_W p) by rewrite -[LHS](mulmxK (posdef_unit D)) IV mul1mx. have DI := posdef_inv D.
have [R ER] := (C73_cholesky DI.1).1.1 DI. have [UP [PR G]] := (C73_cholesky DI.1).2.2 _ ER. have U : R \in unitmx by exact: upper_unit.
exists (fun y z => (y *m s_V p + s_mu p) + z *m R). split; last by move=> C K z y; rewrite /s_sample E /= PI ER /=; eexists.
move=> y. exists (- (2%:R^-1 * ln (\det (R^T *m R)))) => z.
have [_] := lg_change c (s_mu p + y *m s_V p) 0 z LN (posdef_1 F d) U. rewrite mul0mx addr0.
have -> : invmx R *m 1%:M *m (invmx R)^T = s_W p.
  rewrite mulmx1 -[s_W p]invmxK -G -[LHS](mulKmx (_ : R^T *m R \in unitmx)) ?unitmx_mul ?unitmx_tr ?U // trmx_inv.
  rewrite [_ *m (invmx R *m _)]mulmxA -[R^T *m R *m invmx R]mulmxA mulmxV // mulmx1 mulmxV ?unitmx_tr // mulmx1. by [].
rewrite [y *m _ + _]addrC => ->. by rewrite addrC.
Qed.
(** plda.py divides the noise by D instead of its square root: the samples do not have precision D *)
Theorem C77_sample_refuted : exists (p : gplda F 1 1 1) (y : 'I_1 -> 'rV[F]_1) (z2 : 'I_1 -> 'I_1 -> 'rV[F]_1), g_ok p /\
  ~ pushes (fun z0 => g_sample p (fun _ _ => z0) z2 y 0 0) (diag_mx (g_D p)) (g_mu p + y 0 *m g_V p + z2 0 0 *m g_U p).
Proof.
exists (GPlda 0 0 0 (const_mx 4%:R)), (fun _ => 0), (fun _ _ => 0). split; first by move=> j; rewrite mxE ltr0n.
move=> [k H]. have H0 := H 0. have H1 := H 1%:M. move: H0 H1. rewrite /g_sample /log_gauss /= !mul0mx !addr0 !subr0 !add0r.
have -> : \row_j ((0 : 'rV[F]_1) 0 j / (const_mx 4%:R : 'rV[F]_1) 0 j) = 0 by apply/rowP => j; rewrite !mxE mul0r.
have -> : \row_j ((1%:M : 'rV[F]_1) 0 j / (const_mx 4%:R : 'rV[F]_1) 0 j) = 4%:R^-1%:M.
  apply/rowP => j. by rewrite !mxE ![j]ord1 eqxx !mulr1n mul1r.
have -> : diag_mx (const_mx 4%:R) = 4%:R%:M :> 'M[F]_1 by rewrite diag_const_mx.
rewrite !form0l !form1 !det_scalar1. set l := ln _. set l1 := ln _.
have Q : forall h l l1 k c : F, h * (l - 1 * c - 0) = k + h * (l1 - 1 * c - 0) -> h * (l - 1 * c - 4%:R^-1 * 4%:R * 4%:R^-1) = k + h * (l1 - 1 * c - 1 * 1 * 1) -> h * 3%:R = 0.
  move=> h {}l {}l1 {}k {H}c' A B. have E : h * (l - 1 * c' - 0) - (k + h * (l1 - 1 * c' - 0)) - (h * (l - 1 * c' - 4%:R^-1 * 4%:R * 4%:R^-1) - (k + h * (l1 - 1 * c' - 1 * 1 * 1))) = - (h * 3%:R) / 4%:R.
    have X : forall h l l1 k c' : F, h * (l - 1 * c' - 0) - (k + h * (l1 - 1 * c' - 0)) - (h * (l - 1 * c' - 4%:R^-1 * 4%:R * 4%:R^-1) - (k + h * (l1 - 1 * c' - 1 * 1 * 1))) = - (h * 3%:R) / 4%:R by ffn. exact: X.
  move: E. rewrite A B !subrr => /esym/eqP. rewrite mulf_eq0 oppr_eq0 invr_eq0 [4%:R == 0]pnatr_eq0 orbF => /eqP. by [].
move=> A B. have := Q _ _ _ _ _ A B. move/eqP. by rewrite mulf_eq0 invr_eq0 !pnatr_eq0.
Qed.
(** ** The centring of the statistics *)
(** splda.py:78-159: for classes of more than one vector the code subtracts the mean once: with mu = V = W = 1 and the classes {3, 1}, {-3, -1}
    the posterior mean of the first class is not the one returned *)
Theorem C76_posterior_refuted : is_log ln -> exists (p : splda F 1 1) (D : stats F 2 1) cls, posdef (s_W p) /\ stats_of cls D /\ (forall k, nonneg (cls k)) /\
  forall N_is_int, exists r, s_compute_py_g_x ln c p D N_is_int = ok r /\ forall v P, ~ bayes ln c (s_joint ln c p (cls ord0)) v P (row ord0 (spy r)).
Proof.
move=> LN. set p : splda F 1 1 := MkSplda 1%:M 1%:M 1%:M. have PW : posdef (s_W p) by exact: posdef_1. exists p, (D2 F), (@cls2 F). split=> //. split; first exact: stats2. split; first exact: nonneg2.
move=> b. have N0 : forall a, 0 <= sN (D2 F) 0 a by move=> a; rewrite mxE ler0n. have [V H] := groups_ok b N0.
rewrite /s_compute_py_g_x /lr_posterior. set gamma := (_ - _) *m _. set st := SPost _ _ _ _ _.
have [|r [E [R1 _]]] := lr_loop_ok gamma st LN (semi_congr (s_V p) PW) V; first by move=> a; rewrite H. exists r. split; first exact: E.
move=> v P [DP B]. have [DL B'] := s_bayes c LN PW (@nonneg2 F ord0). have [|_ [ME _]] := @gauss_unique F ln c 1 P (s_L p (cls2 _ ord0)) (row ord0 (spy r)) (s_m p (cls2 _ ord0)) v (s_ev ln c p (cls2 _ ord0)) DP DL.
  by move=> y; rewrite -B -B'.
have := R1 ord0. rewrite H /= => -[A _]. rewrite A in ME. move: ME. rewrite /lmean /s_m /s_L total2 /s_gam mxE total2 first2 /sgn eqxx /= !trmx1 !mul1mx.
have -> : lp (1%:M : 'M[F]_1) 2%:R = 3%:R%:M by rewrite /lp scale_scalar_mx mulr1 -raddfD /= -[1 + _]mulrS.
have -> : s_VV p = 1%:M by rewrite /s_VV /= trmx1 !mul1mx.
have -> : lp (1%:M : 'M[F]_1) 2%:R = 3%:R%:M by rewrite /lp scale_scalar_mx mulr1 -raddfD /= -[1 + _]mulrS.
have -> : row ord0 gamma = 3%:R%:M.
  rewrite /gamma /= trmx1 !mulmx1 SpldaProps.row_sub. apply/rowP => j. rewrite !mxE ![j]ord1 /sgn !eqxx !mulr1n. have Q : forall a : F, 4%:R * a - a = 3%:R * a by frn. have := Q 1. by rewrite !mulr1 => <-.
rewrite mulmx1 inv1 scale_scalar_mx !mulr1 -raddfB /= !sm1 => X. have := congr1 (fun x : 'M[F]_1 => x 0 0) X. rewrite !mxE !eqxx !mulr1n.
move/(congr1 (fun x : F => x * 3%:R)). rewrite -!mulrA mulVf ?pnatr_eq0 // !mulr1 => /eqP. rewrite -natrB // eqr_nat. by [].
Qed.
(** the hypotheses of the theorems on the posteriors, the ELBO and training are met by this model and these classes: training V for three epochs
    succeeds, with ELBOs that do not decrease *)
Example C76_witness : log_ok ln -> let p : splda F 1 1 := MkSplda 0 1%:M 1%:M in exists p' vs,
  s_fit_loop ln c (SConfig false true false true) true [:: false; false; false] (D2 F) true p = ok (p', vs) /\ size vs = 3%N /\ sorted <=%R vs.
Proof.
move=> LO p. have PW : posdef (s_W p) by exact: posdef_1. have CE : (forall k, total (@cls2 F k) = 1) \/ (s_mu p = 0 /\ false = false) by right.
have N0 : 0 < \sum_k total (@cls2 F k) by rewrite big_ord_recl big_ord1 !total2 -natrD ltr0n.
have [p' [vs [E _]]] := @C76_fit_total F ln c LO 1 1 1 p (D2 F) (@cls2 F) true (SConfig false true false true) true [:: false; false; false] PW (@stats2 F) (@nonneg2 F) CE N0 (erefl _).
exists p', vs. split; first exact: E. have [||_ [S O]] := @C76_fit F ln c LO 1 1 1 p (D2 F) (@cls2 F) true (SConfig false true false true) true [:: false; false; false] PW (@stats2 F) (@nonneg2 F) CE N0 _ _ p' vs E => //. by move=> b; rewrite !inE => /or3P [] /eqP ->.
Qed.
Example C77_witness : g_ok (GPlda 0 1%:M 1%:M (const_mx 1) : gplda F 1 1 1).
Proof. move=> j. by rewrite mxE ltr01. Qed.
End P.
Print Assumptions C76_sample. Print Assumptions C77_1vs1. Print Assumptions C77_posterior. Print Assumptions C77_elbo. Print Assumptions C77_log_prob. Print Assumptions C77_sample_refuted. Print Assumptions C76_posterior_refuted.
