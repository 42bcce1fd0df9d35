(** C117: training of the PLDA with a channel factor (plda.py:200-371). *)
From Verif Require Import RingF LinAlg LinTrans LinTransProps LinAlgProps GaussLa Frplda FrpldaProps FrpldaEm FrpldaCex Splda SpldaProps SpldaEm PldaProps PldaFit.
Set Warnings "-notation-overridden,-ambiguous-paths".
From mathcomp Require Import all_ssreflect all_algebra.
Set Implicit Arguments. Unset Strict Implicit. Unset Printing Implicit Defensive.
Import Order.TTheory GRing.Theory Num.Theory.
Local Open Scope ring_scope.
Section P.
Variable F : rcfType.
Add Ring FRing' : (F_ring F). Add Ring FZRing' : (F_zring F). Add Field FField' : (F_field F). Add Field FZField' : (F_zfield F).
Variable ln : F -> F.
Variable c : F.
Notation lg := (log_gauss ln c).
Notation total := FrpldaProps.total.
(** ** Specification *)
(** the expectation of a matrix *)
Definition ExM {d a b} (A : 'M[F]_d) (m : 'rV[F]_d) (g : 'rV[F]_d -> 'M[F]_(a, b)) : 'M[F]_(a, b) := \matrix_(i, j) Ex A m (fun y => g y i j).
(** the posterior mean of z given y and the observation x *)
Definition h {e f d} (p : gplda F e f d) (x : 'rV[F]_d) (y : 'rV[F]_e) : 'rV[F]_f := (x - g_mu p - y *m g_V p) *m (diag_mx (g_D p) *m (g_U p)^T *m invmx (Lz p)).
(** the posterior of y given the class, with z integrated out *)
Definition py {e f d} (p : gplda F e f d) (xs : seq (F * 'rV[F]_d)) : 'rV[F]_e * 'M[F]_e := (s_m (g_splda p) xs, s_L (g_splda p) xs).
(** the expectation over y given the class and over z given y and x; A and Az are roots of the two covariances *)
Definition Eyz {e f d a b} (p : gplda F e f d) (A : 'M[F]_e) (Az : 'M[F]_f) (xs : seq (F * 'rV[F]_d)) (x : 'rV[F]_d) (g : 'rV[F]_e -> 'rV[F]_f -> 'M[F]_(a, b)) : 'M[F]_(a, b) :=
  ExM A (py p xs).1 (fun y => ExM Az (h p x y) (g y)).
Definition roots {K e f d} (p : gplda F e f d) (cls : 'I_K -> seq (F * 'rV[F]_d)) (A : 'I_K -> 'M[F]_e) (Az : 'M[F]_f) : Prop :=
  (forall k, root_of (A k) (py p (cls k)).2) /\ root_of Az (Lz p).
(** the weighted sum over all the observations of the expectation of a function of the observation and its factors *)
Definition over {K e f d a b} (p : gplda F e f d) (cls : 'I_K -> seq (F * 'rV[F]_d)) (A : 'I_K -> 'M[F]_e) (Az : 'M[F]_f) (g : 'rV[F]_d -> 'rV[F]_e -> 'rV[F]_f -> 'M[F]_(a, b)) : 'M[F]_(a, b) :=
  \sum_k \sum_(o <- cls k) o.1 *: Eyz p (A k) Az (cls k) o.2 (g o.2).
(** ** Expectations of matrices *)
Lemma ExM_ext d a b (A : 'M[F]_d) m (g g' : 'rV[F]_d -> 'M[F]_(a, b)) : (forall y, g y = g' y) -> ExM A m g = ExM A m g'.
Proof. move=> H. apply/matrixP => i j. rewrite !mxE. apply: Ex_ext => y. by rewrite H. Qed.
Lemma ExM_D d a b (A : 'M[F]_d) m (g g' : 'rV[F]_d -> 'M[F]_(a, b)) : ExM A m (fun y => g y + g' y) = ExM A m g + ExM A m g'.
Proof. apply/matrixP => i j. rewrite !mxE -ExD. apply: Ex_ext => y. by rewrite mxE. Qed.
Lemma ExM_Z d a b (A : 'M[F]_d) m k (g : 'rV[F]_d -> 'M[F]_(a, b)) : ExM A m (fun y => k *: g y) = k *: ExM A m g.
Proof. apply/matrixP => i j. rewrite !mxE -ExZ. apply: Ex_ext => y. by rewrite mxE. Qed.
Lemma ExM_B d a b (A : 'M[F]_d) m (g g' : 'rV[F]_d -> 'M[F]_(a, b)) : ExM A m (fun y => g y - g' y) = ExM A m g - ExM A m g'.
Proof. rewrite -scaleN1r -ExM_Z -ExM_D. apply: ExM_ext => y. by rewrite scaleN1r. Qed.
Lemma ExM_const d a b (A : 'M[F]_d) m (X : 'M[F]_(a, b)) : ExM A m (fun _ => X) = X.
Proof. apply/matrixP => i j. by rewrite mxE Ex_const. Qed.
Lemma ExM_mull d a b n (A : 'M[F]_d) m (X : 'M[F]_(n, a)) (g : 'rV[F]_d -> 'M[F]_(a, b)) : ExM A m (fun y => X *m g y) = X *m ExM A m g.
Proof.
apply/matrixP => i j. rewrite [LHS]mxE [RHS]mxE. under [RHS]eq_bigr => k _ do rewrite mxE -ExZ. rewrite -Ex_sum. apply: Ex_ext => y. by rewrite mxE.
Qed.
Lemma ExM_tr d a b (A : 'M[F]_d) m (g : 'rV[F]_d -> 'M[F]_(a, b)) : ExM A m (fun y => (g y)^T) = (ExM A m g)^T.
Proof. apply/matrixP => i j. rewrite !mxE. apply: Ex_ext => y. by rewrite mxE. Qed.
Lemma ExM_mulr d a b n (A : 'M[F]_d) m (X : 'M[F]_(b, n)) (g : 'rV[F]_d -> 'M[F]_(a, b)) : ExM A m (fun y => g y *m X) = ExM A m g *m X.
Proof. apply: trmx_inj. rewrite trmx_mul -!ExM_tr -ExM_mull. apply: ExM_ext => y. by rewrite trmx_mul. Qed.
Lemma ExM_id d (A : 'M[F]_d) m : ExM A m (fun y => y) = m.
Proof.
apply/rowP => j. rewrite mxE /Ex big1 ?mulr0 ?addr0 // => k _. rewrite !mxE. have Q : forall u v : F, u + v + (u - v) - 2%:R * u = 0 by fr. exact: Q.
Qed.
Lemma ExM_sq d (A : 'M[F]_d) m : ExM A m (fun y => y^T *m y) = A^T *m A + m^T *m m.
Proof.
apply/matrixP => i j. rewrite [LHS]mxE [RHS]mxE addrC. have E : forall v : 'rV[F]_d, (v^T *m v) i j = v 0 i * v 0 j by move=> v; rewrite mxE big_ord1 mxE.
rewrite /Ex E. congr (_ + _). rewrite mxE mulr_sumr. apply: eq_bigr => k _. rewrite !E !mxE.
have Q : forall a b u v : F, 2%:R^-1 * ((a + u) * (b + v) + (a - u) * (b - v) - 2%:R * (a * b)) = u * v by ff. exact: Q.
Qed.
Lemma ExM_row d a b b' (A : 'M[F]_d) m (g : 'rV[F]_d -> 'M[F]_(a, b)) (g' : 'rV[F]_d -> 'M[F]_(a, b')) : ExM A m (fun y => row_mx (g y) (g' y)) = row_mx (ExM A m g) (ExM A m g').
Proof. apply/matrixP => i j. rewrite !mxE. case: (split_ordP j) => k ->; rewrite mxE; apply: Ex_ext => y; by rewrite ?row_mxEl ?row_mxEr. Qed.
Lemma ExM_col d a a' b (A : 'M[F]_d) m (g : 'rV[F]_d -> 'M[F]_(a, b)) (g' : 'rV[F]_d -> 'M[F]_(a', b)) : ExM A m (fun y => col_mx (g y) (g' y)) = col_mx (ExM A m g) (ExM A m g').
Proof. apply: trmx_inj. rewrite tr_col_mx -!ExM_tr -ExM_row. apply: ExM_ext => y. by rewrite tr_col_mx. Qed.
(** given y and x, z is Gaussian with mean h and precision Lz *)
Lemma z_post e f d (p : gplda F e f d) x y : is_log ln -> g_ok p -> bayes ln c (g_xz ln c p y x) (lg (s_W (g_splda p)) (g_mu p + y *m g_V p) x) (Lz p) (h p x y).
Proof.
move=> LN OK. set q := MkSplda (g_mu p + y *m g_V p) (g_U p) (diag_mx (g_D p)).
have PD : posdef (s_W q) by exact: diag_pos. have NN : nonneg [:: (1 : F, x)] by move=> o; rewrite inE => /eqP ->; exact: ler01.
have := s_bayes c LN PD NN. have E1 : s_L q [:: (1, x)] = Lz p by rewrite /s_L /lp /total big_seq1 scale1r.
have -> : s_m q [:: (1, x)] = h p x y by rewrite /s_m E1 /s_gam /first /total !big_seq1 /= !scale1r /h opprD addrA !mulmxA.
rewrite E1 => -[D1 H]. have [_ [_ [_ Z]]] := z_lemma c OK LN. have [P [m [D2 H2]]] := Z y x.
have J : forall z, s_joint ln c q [:: (1, x)] z = g_xz ln c p y x z by move=> z; rewrite /s_joint big_seq1 /= mul1r /g_xz.
split=> // z. rewrite -J H. congr (_ + _). apply: (log_evidence_unique (f := g_xz ln c p y x)); last by exists P, m.
exists (Lz p), (h p x y). split=> // t. by rewrite -J H.
Qed.
Section Stats.
Variables (K e f d : nat) (p : gplda F e f d) (cls : 'I_K -> seq (F * 'rV[F]_d)) (A : 'I_K -> 'M[F]_e) (Az : 'M[F]_f).
Hypothesis (RT : roots p cls A Az).
Notation EE k x g := (Eyz p (A k) Az (cls k) x g).
Notation Bz := (diag_mx (g_D p) *m (g_U p)^T *m invmx (Lz p)).
Notation Gz := (g_V p *m Bz).
Notation m := (fun k => (py p (cls k)).1).
Notation iL := (fun k => invmx (py p (cls k)).2).
Lemma Eyz_ext a b k x (g g' : 'rV[F]_e -> 'rV[F]_f -> 'M[F]_(a, b)) : (forall y z, g y z = g' y z) -> EE k x g = EE k x g'.
Proof. move=> H. apply: ExM_ext => y. apply: ExM_ext => z. exact: H. Qed.
Lemma Eyz_D a b k x (g g' : 'rV[F]_e -> 'rV[F]_f -> 'M[F]_(a, b)) : EE k x (fun y z => g y z + g' y z) = EE k x g + EE k x g'.
Proof. rewrite /Eyz -ExM_D. apply: ExM_ext => y. exact: ExM_D. Qed.
Lemma Eyz_B a b k x (g g' : 'rV[F]_e -> 'rV[F]_f -> 'M[F]_(a, b)) : EE k x (fun y z => g y z - g' y z) = EE k x g - EE k x g'.
Proof. rewrite /Eyz -ExM_B. apply: ExM_ext => y. exact: ExM_B. Qed.
Lemma Eyz_l a b n k x (X : 'M[F]_(n, a)) (g : 'rV[F]_e -> 'rV[F]_f -> 'M[F]_(a, b)) : EE k x (fun y z => X *m g y z) = X *m EE k x g.
Proof. rewrite /Eyz -ExM_mull. apply: ExM_ext => y. exact: ExM_mull. Qed.
Lemma Eyz_r a b n k x (X : 'M[F]_(b, n)) (g : 'rV[F]_e -> 'rV[F]_f -> 'M[F]_(a, b)) : EE k x (fun y z => g y z *m X) = EE k x g *m X.
Proof. rewrite /Eyz -ExM_mulr. apply: ExM_ext => y. exact: ExM_mulr. Qed.
Lemma Eyz_tr a b k x (g : 'rV[F]_e -> 'rV[F]_f -> 'M[F]_(a, b)) : EE k x (fun y z => (g y z)^T) = (EE k x g)^T.
Proof. rewrite /Eyz -ExM_tr. apply: ExM_ext => y. exact: ExM_tr. Qed.
Lemma Eyz_c a b k x (X : 'M[F]_(a, b)) : EE k x (fun y z => X) = X.
Proof. rewrite /Eyz -[RHS](ExM_const (A k) (m k)). apply: ExM_ext => y. exact: ExM_const. Qed.
Lemma Eyz_y a b k x (g : 'rV[F]_e -> 'M[F]_(a, b)) : EE k x (fun y z => g y) = ExM (A k) (m k) g.
Proof. apply: ExM_ext => y. exact: ExM_const. Qed.
Lemma h_aff x y : h p x y = (x - g_mu p) *m Bz - y *m Gz.
Proof. by rewrite /h mulmxBl !mulmxA. Qed.
Lemma E_yy k x : EE k x (fun y z => y^T *m y) = iL k + (m k)^T *m m k.
Proof. rewrite Eyz_y ExM_sq. by rewrite (RT.1 k).1. Qed.
Lemma E_z k x : EE k x (fun y z => z) = (x - g_mu p) *m Bz - m k *m Gz.
Proof.
rewrite /Eyz. have -> : ExM (A k) (m k) (fun y => ExM Az (h p x y) (fun z => z)) = ExM (A k) (m k) (fun y => (x - g_mu p) *m Bz - y *m Gz) by apply: ExM_ext => y; rewrite ExM_id h_aff.
by rewrite ExM_B ExM_const (ExM_mulr _ _ _ (fun y => y)) ExM_id.
Qed.
Lemma E_yz k x : EE k x (fun y z => y^T *m z) = (m k)^T *m ((x - g_mu p) *m Bz) - (iL k + (m k)^T *m m k) *m Gz.
Proof.
rewrite /Eyz. have -> : ExM (A k) (m k) (fun y => ExM Az (h p x y) (fun z => y^T *m z)) = ExM (A k) (m k) (fun y => y^T *m ((x - g_mu p) *m Bz) - y^T *m y *m Gz).
  apply: ExM_ext => y. by rewrite (ExM_mull _ _ _ (fun z => z)) ExM_id h_aff mulmxBr -[y^T *m y *m _]mulmxA.
by rewrite ExM_B !ExM_mulr ExM_tr ExM_id ExM_sq (RT.1 k).1.
Qed.
Lemma sq_diff n n' (a : 'rV[F]_n) (y : 'rV[F]_n') (G : 'M[F]_(n', n)) : (a - y *m G)^T *m (a - y *m G) = a^T *m a - a^T *m (y *m G) - (y *m G)^T *m a + G^T *m (y^T *m y) *m G.
Proof. rewrite [(a - _)^T]linearB /= mulmxBl !mulmxBr opprB addrCA addrC. congr (_ + _). by rewrite trmx_mul !mulmxA. Qed.
Lemma E_zz k x : let a := (x - g_mu p) *m Bz in EE k x (fun y z => z^T *m z) = invmx (Lz p) + a^T *m a - a^T *m (m k *m Gz) - (m k *m Gz)^T *m a + Gz^T *m (iL k + (m k)^T *m m k) *m Gz.
Proof.
move=> a. rewrite /Eyz. have -> : ExM (A k) (m k) (fun y => ExM Az (h p x y) (fun z => z^T *m z)) =
  ExM (A k) (m k) (fun y => (invmx (Lz p) + a^T *m a - a^T *m (y *m Gz) - (y *m Gz)^T *m a) + Gz^T *m (y^T *m y) *m Gz).
  apply: ExM_ext => y. rewrite ExM_sq RT.2.1 h_aff -/a sq_diff !addrA. by [].
rewrite ExM_D !ExM_B ExM_const (ExM_mulr _ _ _ (fun y => Gz^T *m (y^T *m y))) (ExM_mull _ _ _ (fun y => y^T *m y)) ExM_sq (RT.1 k).1.
rewrite (ExM_mull _ _ _ (fun y => y *m Gz)) (ExM_mulr _ _ _ (fun y => (y *m Gz)^T)) (ExM_tr _ _ (fun y => y *m Gz)) (ExM_mulr _ _ Gz (fun y => y)) ExM_id. by [].
Qed.
Notation ov g := (over p cls A Az g).
Lemma over_ext a b (g g' : 'rV[F]_d -> 'rV[F]_e -> 'rV[F]_f -> 'M[F]_(a, b)) : (forall x y z, g x y z = g' x y z) -> ov g = ov g'.
Proof. move=> H. apply: eq_bigr => k _. apply: eq_bigr => o _. congr (_ *: _). apply: Eyz_ext => y z. exact: H. Qed.
Lemma w_const a b k (X : 'M[F]_(a, b)) : \sum_(o <- cls k) o.1 *: X = total (cls k) *: X.
Proof. by rewrite -scaler_suml. Qed.
Lemma w_r b k (X : 'M[F]_(d, b)) : \sum_(o <- cls k) o.1 *: (o.2 *m X) = first (cls k) *m X.
Proof. rewrite /first mulmx_suml. apply: eq_bigr => o _. by rewrite scalemxAl. Qed.
Lemma w_tr b k (X : 'M[F]_(1, b)) : \sum_(o <- cls k) o.1 *: (o.2^T *m X) = (first (cls k))^T *m X.
Proof. rewrite /first trmx_sum mulmx_suml. apply: eq_bigr => o _. by rewrite [(_ *: _)^T]linearZ /= scalemxAl. Qed.
Lemma w_l b k (X : 'M[F]_(b, 1)) : \sum_(o <- cls k) o.1 *: (X *m o.2) = X *m first (cls k).
Proof. rewrite /first mulmx_sumr. apply: eq_bigr => o _. by rewrite scalemxAr. Qed.
Lemma w_s b k (Y : 'M[F]_(d, b)) : \sum_(o <- cls k) o.1 *: (o.2^T *m (o.2 *m Y)) = second (cls k) *m Y.
Proof. rewrite /second mulmx_suml. apply: eq_bigr => o _. by rewrite -scalemxAl -mulmxA. Qed.
Lemma over_Ry1 : ov (fun x y z => y) = \sum_k total (cls k) *: m k.
Proof. apply: eq_bigr => k _. rewrite -w_const. apply: eq_bigr => o _. by rewrite Eyz_y ExM_id. Qed.
Lemma over_Ry : ov (fun x y z => y^T *m y) = \sum_k total (cls k) *: (iL k + (m k)^T *m m k).
Proof. apply: eq_bigr => k _. rewrite -w_const. apply: eq_bigr => o _. by rewrite E_yy. Qed.
Lemma over_Cy : ov (fun x y z => x^T *m y) = \sum_k (first (cls k))^T *m m k.
Proof. apply: eq_bigr => k _. rewrite -w_tr. apply: eq_bigr => o _. by rewrite Eyz_l Eyz_y ExM_id. Qed.
Hypothesis MU : g_mu p = 0.
Lemma over_Rz1 : ov (fun x y z => z) = (\sum_k first (cls k)) *m Bz - ov (fun x y z => y) *m Gz.
Proof.
rewrite over_Ry1 !mulmx_suml -sumrB. apply: eq_bigr => k _. rewrite -w_r -scalemxAl -w_const -sumrB. apply: eq_bigr => o _. by rewrite E_z MU subr0 scalerBr.
Qed.
Lemma over_Ryz : ov (fun x y z => y^T *m z) = (ov (fun x y z => x^T *m y))^T *m Bz - ov (fun x y z => y^T *m y) *m Gz.
Proof.
rewrite over_Ry over_Cy trmx_sum !mulmx_suml -sumrB. apply: eq_bigr => k _. rewrite trmx_mul trmxK -[_ *m first _ *m _]mulmxA -w_r mulmx_sumr -scalemxAl -w_const -sumrB.
apply: eq_bigr => o _. by rewrite E_yz MU subr0 scalerBr scalemxAr.
Qed.
Lemma over_Cz : ov (fun x y z => x^T *m z) = (\sum_k second (cls k)) *m Bz - ov (fun x y z => x^T *m y) *m Gz.
Proof.
rewrite over_Cy !mulmx_suml -sumrB. apply: eq_bigr => k _. rewrite -w_s -[_ *m _ *m Gz]mulmxA -w_tr -sumrB. apply: eq_bigr => o _. by rewrite Eyz_l E_z MU subr0 mulmxBr scalerBr.
Qed.
Lemma over_Rz : ov (fun x y z => z^T *m z) = (\sum_k total (cls k)) *: invmx (Lz p) + Bz^T *m (\sum_k second (cls k)) *m Bz - Bz^T *m ov (fun x y z => x^T *m y) *m Gz
  - (Bz^T *m ov (fun x y z => x^T *m y) *m Gz)^T + Gz^T *m ov (fun x y z => y^T *m y) *m Gz.
Proof.
rewrite over_Cy over_Ry /over. set B := Bz. set G := g_V p *m B.
have EX : forall k (o : F * 'rV[F]_d), EE k o.2 (fun y z => z^T *m z) = invmx (Lz p) + B^T *m (o.2^T *m (o.2 *m B)) - B^T *m (o.2^T *m (m k *m G)) - (B^T *m (o.2^T *m (m k *m G)))^T + G^T *m (iL k + (m k)^T *m m k) *m G.
  move=> k o. rewrite E_zz MU subr0 -/B -/G trmx_mul -!mulmxA. congr (_ + _ - _ - _ + _). by rewrite [RHS]trmx_mul trmxK [(_^T *m _)^T]trmx_mul trmxK -!mulmxA.
under eq_bigr => k _ do under eq_bigr => o _ do rewrite EX. clear EX. clearbody G B.
rewrite scaler_suml !mulmx_sumr !mulmx_suml trmx_sum -big_split -sumrB -sumrB -big_split. apply: eq_bigr => k _. cbv beta. move: (py p (cls k)).1 (invmx (py p (cls k)).2) => mk ik.
have ML : forall a b (X : 'M[F]_(a, d)) (g : F * 'rV[F]_d -> 'M[F]_(d, b)), \sum_(o <- cls k) o.1 *: (X *m g o) = X *m \sum_(o <- cls k) o.1 *: g o.
  move=> a b X g. rewrite mulmx_sumr. apply: eq_bigr => o _. by rewrite scalemxAr.
under eq_bigr => o _ do rewrite !scalerDr !scalerN. rewrite big_split sumrB sumrB big_split /= !w_const. rewrite (ML _ _ B^T (fun o => o.2^T *m (o.2 *m B))) w_s (ML _ _ B^T (fun o => o.2^T *m (mk *m G))) w_tr.
rewrite -scalemxAr -scalemxAl -!mulmxA. congr (_ + _ - _ - _ + _). under eq_bigr => o _ do rewrite -[_ *: _^T]linearZ /=.
rewrite -trmx_sum. congr (_^T). by rewrite (ML _ _ B^T (fun o => o.2^T *m (mk *m G))) w_tr.
Qed.
End Stats.
(** the E step (with a mean of zero) gives the expectations of the statistics of the complete data under the posterior of the factors *)
Theorem C117_Estep : is_log ln -> forall K e f d (p : gplda F e f d) (D : stats F K d) cls N_is_int A Az, g_ok p -> stats_of cls D -> (forall k, nonneg (cls k)) -> g_mu p = 0 ->
  roots p cls A Az -> exists s, g_Estep ln c p D N_is_int = ok s /\
  hN s = \sum_k total (cls k) /\ hM s = K%:R /\ hF s = \sum_k first (cls k) /\ hS s = \sum_k second (cls k) /\
  hy s = \sum_k ExM (A k) (py p (cls k)).1 (fun y => y) /\ hPy s = \sum_k ExM (A k) (py p (cls k)).1 (fun y => y^T *m y) /\
  hRy1 s = over p cls A Az (fun x y z => y) /\ hRy s = over p cls A Az (fun x y z => y^T *m y) /\ hCy s = over p cls A Az (fun x y z => x^T *m y) /\
  hRz1 s = over p cls A Az (fun x y z => z) /\ hRz s = over p cls A Az (fun x y z => z^T *m z) /\ hRyz s = over p cls A Az (fun x y z => y^T *m z) /\
  hCz s = over p cls A Az (fun x y z => x^T *m z).
Proof.
move=> LN K e f d p D cls b A Az OK ST NN MU RT. set q := g_splda p. have PW : posdef (s_W q) by exact: Wg_pos.
have SE := s_estep_ok c b LN PW ST NN (or_introl (MU : s_mu q = 0)).
have PE : g_compute_py_g_x ln c p D b = s_compute_py_g_x ln c q D b by exact: g_posterior_eq.
have DU : (g_U p *m diag_mx (g_D p))^T = diag_mx (g_D p) *m (g_U p)^T by rewrite trmx_mul tr_diag_mx.
have [z [EZ [RZ _]]] := (C73_invert_pdmat LN true (Lz_pos OK).1).2 (Lz_pos OK).
have PR : forall a (X : 'M[F]_(a, f)), p_right z X = X *m invmx (Lz p) by move=> a X; rewrite -[LHS](mulmxK (posdef_unit (Lz_pos OK))) RZ.
rewrite /g_Estep PE. move: SE. rewrite /s_Estep. case: (s_compute_py_g_x ln c q D b) => [r|] //= -[E1 E2 E3 E4 E5 E6 E7 E8 E9].
rewrite -[g_U p *m diag_mx (g_D p) *m (g_U p)^T]mulmxA -/(Lz p) EZ /=. eexists. split; first by [].
rewrite /= MU !DU !PR trmx0 !mul0mx !mulmx0 !subr0 scaler0 addr0.
have Z : \sum_j (\sum_i row i (sF D)) 0 j * (0 : 'rV[F]_d) 0 j = 0 by apply: big1 => j _; rewrite mxE mulr0. rewrite Z.
have Z0 : const_mx 0 = 0 :> 'M[F]_d by apply/matrixP => i j; rewrite !mxE. rewrite Z0 subr0.
rewrite E1 E2 E3 E5 E6 E7 E8 E9. split=> //. split=> //. split=> //. split=> //.
split; first by apply: eq_bigr => k _; rewrite ExM_id. split; first by apply: eq_bigr => k _; rewrite ExM_sq (RT.1 k).1.
split; first by rewrite (over_Ry1 p cls A Az). split; first by rewrite (over_Ry RT). split; first by rewrite (over_Cy p cls A Az).
have H1 := over_Ry1 p cls A Az. have H2 := over_Ry RT. have H3 := over_Cy p cls A Az.
split; first by rewrite (over_Rz1 cls A Az MU) H1 mulmxBl !mulmxA. 
split.
  rewrite (over_Rz RT MU) H2 H3 !trmx0 !subr0 mul1mx. have -> : g_U p *m diag_mx (g_D p) = (diag_mx (g_D p) *m (g_U p)^T)^T by rewrite -DU trmxK.
  rewrite [diag_mx _ *m _ *m invmx _]/= addrC -!addrA. congr (_ + _). rewrite !addrA. move: (posdef_inv (Lz_pos OK)).1. rewrite /py /= -/q. set C0 := \sum_k _ *m _. set R0 := \sum_k _ *: (_ + _). set S0 := \sum_k second _.
  set BU := diag_mx _ *m _. set J := g_V p *m BU. have -> : g_V p *m (BU *m invmx (Lz p)) = J *m invmx (Lz p) by rewrite mulmxA. clearbody C0 R0 S0 BU J. move: (invmx _) => iL SY.
  rewrite [LHS]trmx_mul trmxK SY !trmx_mul !trmxK !SY. rewrite !mulmxDl !mulNmx !mulmxDr !mulmxN !mulmxA. by []. 
split; first by rewrite (over_Ryz RT MU) H2 H3 mulmxBl !mulmxA.
by rewrite (over_Cz cls A Az MU) H3 mulmxBl !mulmxA.
Qed.
(** ** The M step *)
(** the expected outer products of the residuals of the data with the parameters mu, V and U, under the posterior of p *)
Definition resid {K e f d} (p : gplda F e f d) (cls : 'I_K -> seq (F * 'rV[F]_d)) A Az (mu : 'rV[F]_d) (V : 'M[F]_(e, d)) (U : 'M[F]_(f, d)) : 'M[F]_d :=
  over p cls A Az (fun x y z => (x - mu - y *m V - z *m U)^T *m (x - mu - y *m V - z *m U)).
Section Over.
Variables (K e f d : nat) (p : gplda F e f d) (cls : 'I_K -> seq (F * 'rV[F]_d)) (A : 'I_K -> 'M[F]_e) (Az : 'M[F]_f).
Notation ov g := (over p cls A Az g).
Lemma over_D a b (g g' : 'rV[F]_d -> 'rV[F]_e -> 'rV[F]_f -> 'M[F]_(a, b)) : ov (fun x y z => g x y z + g' x y z) = ov g + ov g'.
Proof. rewrite /over -big_split /=. apply: eq_bigr => k _. rewrite -big_split /=. apply: eq_bigr => o _. by rewrite -scalerDr -Eyz_D. Qed.
Lemma over_B a b (g g' : 'rV[F]_d -> 'rV[F]_e -> 'rV[F]_f -> 'M[F]_(a, b)) : ov (fun x y z => g x y z - g' x y z) = ov g - ov g'.
Proof. rewrite /over -sumrB. apply: eq_bigr => k _. rewrite -sumrB. apply: eq_bigr => o _. by rewrite -scalerBr -Eyz_B. Qed.
Lemma over_l a b n (X : 'M[F]_(n, a)) (g : 'rV[F]_d -> 'rV[F]_e -> 'rV[F]_f -> 'M[F]_(a, b)) : ov (fun x y z => X *m g x y z) = X *m ov g.
Proof. rewrite /over mulmx_sumr. apply: eq_bigr => k _. rewrite mulmx_sumr. apply: eq_bigr => o _. by rewrite -scalemxAr -Eyz_l. Qed.
Lemma over_r a b n (X : 'M[F]_(b, n)) (g : 'rV[F]_d -> 'rV[F]_e -> 'rV[F]_f -> 'M[F]_(a, b)) : ov (fun x y z => g x y z *m X) = ov g *m X.
Proof. rewrite /over mulmx_suml. apply: eq_bigr => k _. rewrite mulmx_suml. apply: eq_bigr => o _. by rewrite -scalemxAl -Eyz_r. Qed.
Lemma over_tr a b (g : 'rV[F]_d -> 'rV[F]_e -> 'rV[F]_f -> 'M[F]_(a, b)) : ov (fun x y z => (g x y z)^T) = (ov g)^T.
Proof. rewrite /over trmx_sum. apply: eq_bigr => k _. rewrite trmx_sum. apply: eq_bigr => o _. by rewrite [RHS]linearZ /= (Eyz_tr p cls A Az k). Qed.
Lemma over_row a b b' (g : 'rV[F]_d -> 'rV[F]_e -> 'rV[F]_f -> 'M[F]_(a, b)) (g' : 'rV[F]_d -> 'rV[F]_e -> 'rV[F]_f -> 'M[F]_(a, b')) : ov (fun x y z => row_mx (g x y z) (g' x y z)) = row_mx (ov g) (ov g').
Proof.
have RS : forall (I : Type) (s : seq I) (u : I -> 'M[F]_(a, b)) (v : I -> 'M[F]_(a, b')), \sum_(i <- s) row_mx (u i) (v i) = row_mx (\sum_(i <- s) u i) (\sum_(i <- s) v i).
  move=> I s u v. elim: s => [|x s IH]; first by rewrite !big_nil row_mx0. by rewrite !big_cons IH add_row_mx.
rewrite /over -RS. apply: eq_bigr => k _. rewrite -RS. apply: eq_bigr => o _. rewrite -scale_row_mx. congr (_ *: _). rewrite /Eyz -ExM_row. apply: ExM_ext => y. exact: ExM_row.
Qed.
Lemma over_col a a' b (g : 'rV[F]_d -> 'rV[F]_e -> 'rV[F]_f -> 'M[F]_(a, b)) (g' : 'rV[F]_d -> 'rV[F]_e -> 'rV[F]_f -> 'M[F]_(a', b)) : ov (fun x y z => col_mx (g x y z) (g' x y z)) = col_mx (ov g) (ov g').
Proof. apply: trmx_inj. rewrite tr_col_mx -!over_tr -over_row. apply: over_ext => x y z. by rewrite tr_col_mx. Qed.
Lemma over_x a b (g : 'rV[F]_d -> 'M[F]_(a, b)) : ov (fun x y z => g x) = \sum_k \sum_(o <- cls k) o.1 *: g o.2.
Proof. apply: eq_bigr => k _. apply: eq_bigr => o _. by rewrite Eyz_c. Qed.
(** the statistics s are the expectations *)
Definition expected (s : gstats F e f d) : Prop :=
  hN s = \sum_k total (cls k) /\ hF s = \sum_k first (cls k) /\ hS s = \sum_k second (cls k) /\
  hRy1 s = ov (fun x y z => y) /\ hRy s = ov (fun x y z => y^T *m y) /\ hCy s = ov (fun x y z => x^T *m y) /\
  hRz1 s = ov (fun x y z => z) /\ hRz s = ov (fun x y z => z^T *m z) /\ hRyz s = ov (fun x y z => y^T *m z) /\ hCz s = ov (fun x y z => x^T *m z).
Definition uu3 (y : 'rV[F]_e) (z : 'rV[F]_f) : 'rV[F]_(e + f + 1) := row_mx (row_mx y z) 1%:M.
Lemma big_R_eq s : expected s -> big_R s = ov (fun x y z => (uu3 y z)^T *m uu3 y z).
Proof.
move=> [E1 [E2 [E3 [E4 [E5 [E6 [E7 [E8 [E9 E10]]]]]]]]]. rewrite /big_R E1 E4 E5 E7 E8 E9.
have -> : ov (fun x y z => (uu3 y z)^T *m uu3 y z) = ov (fun x y z => col_mx (row_mx (col_mx (row_mx (y^T *m y) (y^T *m z)) (row_mx (y^T *m z)^T (z^T *m z))) (row_mx y z)^T) (row_mx (row_mx y z) 1%:M)).
  apply: over_ext => x y z. rewrite /uu3 tr_row_mx mul_col_row trmx1 mulmx1 !mul1mx tr_row_mx mul_col_row -!block_mxEv. by rewrite trmx_mul trmxK.
rewrite (over_col (fun x y z => row_mx (col_mx (row_mx (y^T *m y) (y^T *m z)) (row_mx (y^T *m z)^T (z^T *m z))) (row_mx y z)^T) (fun x y z => row_mx (row_mx y z) 1%:M)).
rewrite (over_row (fun x y z => col_mx (row_mx (y^T *m y) (y^T *m z)) (row_mx (y^T *m z)^T (z^T *m z))) (fun x y z => (row_mx y z)^T)) (over_row (fun x y z => row_mx y z) (fun x y z => 1%:M)).
rewrite (over_col (fun x y z => row_mx (y^T *m y) (y^T *m z)) (fun x y z => row_mx (y^T *m z)^T (z^T *m z))) (over_row (fun x y z => y^T *m y) (fun x y z => y^T *m z)) (over_row (fun x y z => (y^T *m z)^T) (fun x y z => z^T *m z)).
rewrite (over_tr (fun x y z => y^T *m z)) (over_tr (fun x y z => row_mx y z)) (over_row (fun x y z => y) (fun x y z => z)) -!block_mxEv. congr block_mx. rewrite (over_x (fun x => 1%:M)).
rewrite -scalemx1 scaler_suml. apply: eq_bigr => k _. by rewrite -scaler_suml.
Qed.
Lemma big_C_eq s : expected s -> big_C s = ov (fun x y z => x^T *m uu3 y z).
Proof.
move=> [E1 [E2 [E3 [E4 [E5 [E6 [E7 [E8 [E9 E10]]]]]]]]]. rewrite /big_C E2 E6 E10.
have -> : ov (fun x y z => x^T *m uu3 y z) = ov (fun x y z => row_mx (row_mx (x^T *m y) (x^T *m z)) x^T) by apply: over_ext => x y z; rewrite /uu3 !mul_mx_row mulmx1.
rewrite (over_row (fun x y z => row_mx (x^T *m y) (x^T *m z)) (fun x y z => x^T)) (over_row (fun x y z => x^T *m y) (fun x y z => x^T *m z)) (over_tr (fun x y z => x)). congr (row_mx _ (_^T)). by rewrite (over_x (fun x => x)).
Qed.
Lemma resid_eq s mu V U : expected s -> let X := col_mx (col_mx V U) mu in
  resid p cls A Az mu V U = hS s - big_C s *m X - (big_C s *m X)^T + X^T *m big_R s *m X.
Proof.
move=> ES X. rewrite (big_C_eq ES) (big_R_eq ES) -over_r -over_tr -over_l -over_r.
have -> : hS s = ov (fun x y z => x^T *m x) by rewrite over_x; case: ES => [_ [_ [-> _]]].
rewrite -!over_B -over_D. apply: over_ext => x y z. have -> : x - mu - y *m V - z *m U = x - uu3 y z *m X by rewrite /uu3 /X !mul_row_col mul1mx [y *m V + _ + _]addrC addrA !opprD !addrA.
rewrite sq_diff. rewrite -!mulmxA. congr (_ - _ - _ + _). by rewrite !trmx_mul trmxK.
Qed.
End Over.
(** the square of an affine function *)
Lemma ExM_aff d n (A : 'M[F]_d) m (w : 'rV[F]_n) (G : 'M[F]_(d, n)) :
  ExM A m (fun y => (w + y *m G)^T *m (w + y *m G)) = (A *m G)^T *m (A *m G) + (w + m *m G)^T *m (w + m *m G).
Proof.
have E : forall y : 'rV[F]_d, (w + y *m G)^T *m (w + y *m G) = w^T *m w + w^T *m (y *m G) + (y *m G)^T *m w + G^T *m (y^T *m y) *m G.
  move=> y. have := sq_diff w y (- G). rewrite mulmxN opprK => ->. rewrite !mulmxN opprK [(- (y *m G))^T]linearN /= mulNmx opprK [(- G)^T]linearN /= !mulNmx opprK. by [].
rewrite (ExM_ext _ _ E) !ExM_D ExM_const (ExM_mull _ _ _ (fun y => y *m G)) (ExM_mulr _ _ _ (fun y => (y *m G)^T)) (ExM_tr _ _ (fun y => y *m G)).
rewrite (ExM_mulr _ _ _ (fun y => G^T *m (y^T *m y))) (ExM_mull _ _ _ (fun y => y^T *m y)) ExM_sq (ExM_mulr _ _ G (fun y => y)) ExM_id E.
rewrite mulmxDr mulmxDl addrCA. congr (_ + _). by rewrite !trmx_mul !mulmxA.
Qed.
Lemma diag_sq d n (X : 'M[F]_(d, n)) j : 0 <= (X^T *m X) j j.
Proof. rewrite mxE. apply: sumr_ge0 => i _. by rewrite mxE -expr2 sqr_ge0. Qed.
Lemma Eyz_sq e f d n (p : gplda F e f d) A Az xs x (w : 'rV[F]_n) G1 G2 j : 0 <= (Eyz p A Az xs x (fun y z => (w + y *m G1 + z *m G2)^T *m (w + y *m G1 + z *m G2))) j j.
Proof.
rewrite /Eyz. set g := fun y => ExM _ _ _. set Bz := diag_mx (g_D p) *m (g_U p)^T *m invmx (Lz p).
have E : forall y, g y = (Az *m G2)^T *m (Az *m G2) + ((w + (x - g_mu p) *m Bz *m G2) + y *m (G1 - g_V p *m Bz *m G2))^T *m ((w + (x - g_mu p) *m Bz *m G2) + y *m (G1 - g_V p *m Bz *m G2)).
  move=> y. rewrite /g ExM_aff. congr (_ + _). have -> : w + y *m G1 + h p x y *m G2 = (w + (x - g_mu p) *m Bz *m G2) + y *m (G1 - g_V p *m Bz *m G2); last by [].
  rewrite h_aff -/Bz mulmxBl mulmxBr -!mulmxA. move: (y *m G1) ((x - g_mu p) *m _) (y *m (g_V p *m _)) => a b b'. apply/matrixP => i j'. rewrite !mxE.
  have Q : forall a b c b' : F, a + b + (c - b') = a + c + (b - b') by fr. exact: Q.
by rewrite (ExM_ext _ _ E) ExM_D ExM_const ExM_aff; do 2! rewrite mxE addr_ge0 ?diag_sq //; rewrite mxE addr_ge0 ?diag_sq.
Qed.
Section Best.
Variables (K e f d : nat) (p : gplda F e f d) (cls : 'I_K -> seq (F * 'rV[F]_d)) (A : 'I_K -> 'M[F]_e) (Az : 'M[F]_f).
Notation ov g := (over p cls A Az g).
Lemma over_sq n (X : 'M[F]_(e + f + 1, n)) j : (forall k, nonneg (cls k)) -> 0 <= (ov (fun x y z => (uu3 y z *m X)^T *m (uu3 y z *m X))) j j.
Proof.
move=> NN. rewrite /over summxE. apply: sumr_ge0 => k _. rewrite summxE big_seq. apply: sumr_ge0 => o IN. rewrite mxE. apply: mulr_ge0; first exact: NN IN.
have -> : Eyz p (A k) Az (cls k) o.2 (fun y z => (uu3 y z *m X)^T *m (uu3 y z *m X)) =
  Eyz p (A k) Az (cls k) o.2 (fun y z => (dsubmx X + y *m usubmx (usubmx X) + z *m dsubmx (usubmx X))^T *m (dsubmx X + y *m usubmx (usubmx X) + z *m dsubmx (usubmx X))).
  apply: Eyz_ext => y z. have -> : uu3 y z *m X = dsubmx X + y *m usubmx (usubmx X) + z *m dsubmx (usubmx X); last by [].
  rewrite -{1}[X]vsubmxK /uu3 mul_row_col mul1mx -{1}[usubmx X]vsubmxK mul_row_col addrC addrA. by [].
exact: Eyz_sq.
Qed.
Lemma resid_le s mu V U mu' V' U' : expected p cls A Az s -> (forall k, nonneg (cls k)) ->
  let X := col_mx (col_mx V U) mu in let X' := col_mx (col_mx V' U') mu' in
  (X' - X)^T *m (big_R s *m X - (big_C s)^T) = 0 -> forall j, resid p cls A Az mu V U j j <= resid p cls A Az mu' V' U' j j.
Proof.
move=> ES NN X X' Z j. rewrite !(resid_eq _ _ _ ES) -/X -/X'. set D := X' - X. have -> : X' = X + D by rewrite /D addrC subrK.
have RS : (big_R s)^T = big_R s. rewrite (big_R_eq ES) -over_tr. apply: over_ext => x y z. by rewrite trmx_mul trmxK.
have PS : 0 <= (D^T *m big_R s *m D) j j.
  rewrite (big_R_eq ES). rewrite -over_l -over_r. have := over_sq D j NN. set a := ov _. set b := ov _. have -> : a = b; last by []. apply: over_ext => x y z. by rewrite trmx_mul !mulmxA.
move: Z PS. rewrite -/D mulmxBr => /eqP. rewrite subr_eq0 => /eqP Z PS. clearbody D.
have Z' : X^T *m big_R s *m D = big_C s *m D by apply: trmx_inj; rewrite !trmx_mul trmxK RS -Z.
have -> : (X + D)^T *m big_R s *m (X + D) = X^T *m big_R s *m X + (big_C s *m D) + (big_C s *m D)^T + D^T *m big_R s *m D.
  by rewrite [(X + D)^T]linearD /= !mulmxDl !mulmxDr Z' trmx_mul -Z !mulmxA !addrA.
rewrite mulmxDr [(_ + _)^T]linearD /=. set T1 := X^T *m _ *m _. set T2 := D^T *m _ *m _ in PS *. set c1 := big_C s *m X. set c2 := big_C s *m D. clearbody T1 T2 c1 c2.
have -> : hS s - (c1 + c2) - (c1^T + c2^T) + (T1 + c2 + c2^T + T2) = (hS s - c1 - c1^T + T1) + T2.
  apply/matrixP => a b. rewrite !mxE. have Q : forall h x y x' y' t u : F, h - (x + y) - (x' + y') + (t + y + y' + u) = h - x - x' + t + u by fr. exact: Q.
by rewrite [in X in _ <= X]mxE ler_addl.
Qed.
Lemma grad_eq (s : gstats F e f d) mu V U : big_R s *m col_mx (col_mx V U) mu - (big_C s)^T =
  col_mx (col_mx (hRy s *m V + hRyz s *m U + (hRy1 s)^T *m mu - (hCy s)^T) ((hRyz s)^T *m V + hRz s *m U + (hRz1 s)^T *m mu - (hCz s)^T)) (hRy1 s *m V + hRz1 s *m U + hN s *: mu - hF s).
Proof. by rewrite /big_R /big_C !mul_block_col !tr_row_mx mul_col_mx add_col_mx mul_row_col mul_scalar_mx trmxK !opp_col_mx !add_col_mx. Qed.
Lemma grad0 (s : gstats F e f d) mu V U mu' V' U' :
  (V' - V)^T *m (hRy s *m V + hRyz s *m U + (hRy1 s)^T *m mu - (hCy s)^T) = 0 -> (U' - U)^T *m ((hRyz s)^T *m V + hRz s *m U + (hRz1 s)^T *m mu - (hCz s)^T) = 0 ->
  (mu' - mu)^T *m (hRy1 s *m V + hRz1 s *m U + hN s *: mu - hF s) = 0 ->
  (col_mx (col_mx V' U') mu' - col_mx (col_mx V U) mu)^T *m (big_R s *m col_mx (col_mx V U) mu - (big_C s)^T) = 0.
Proof. move=> H1 H2 H3. by rewrite grad_eq opp_col_mx add_col_mx opp_col_mx add_col_mx !tr_col_mx !mul_row_col H1 H2 H3 !addr0. Qed.
Lemma means_best cf s mu V U : is_log ln -> expected p cls A Az s -> (forall k, nonneg (cls k)) -> 0 < \sum_k total (cls k) -> ~~ [&& v_mu cf, v_V cf & ~~ v_U cf] ->
  g_means ln cf p s = ok (mu, V, U) -> (v_mu cf = false -> mu = g_mu p) /\ (v_V cf = false -> V = g_V p) /\ (v_U cf = false -> U = g_U p) /\
  forall mu' V' U', (v_mu cf = false -> mu' = g_mu p) -> (v_V cf = false -> V' = g_V p) -> (v_U cf = false -> U' = g_U p) -> forall j, resid p cls A Az mu V U j j <= resid p cls A Az mu' V' U' j j.
Proof.
move=> LN ES NN N0 BAD GM.
have RS : (big_R s)^T = big_R s by rewrite (big_R_eq ES) -over_tr; apply: over_ext => x y z; rewrite trmx_mul trmxK.
have BS : (block_mx (hRy s) (hRyz s) (hRyz s)^T (hRz s))^T = block_mx (hRy s) (hRyz s) (hRyz s)^T (hRz s) by have := congr1 ulsubmx RS; rewrite /big_R tr_block_mx !block_mxKul.
have ZS : (hRz s)^T = hRz s by have := congr1 drsubmx BS; rewrite tr_block_mx !block_mxKdr.
have NE : hN s != 0 by case: (ES) => -> _; rewrite gt_eqF.
move: GM BAD. rewrite /g_means. case UM: (v_mu cf); case UV: (v_V cf); case UU: (v_U cf) => //.
- case E: (invert_pdmat ln (big_R s) false) => [r|//] /= [<- <- <-] _. have [_ [_ [_ LT]]] := inv_found LN RS E. set X := p_left r _.
  have XE : big_R s *m X - (big_C s)^T = 0 by rewrite LT subrr. have XB : X = col_mx (col_mx (usubmx (usubmx X)) (dsubmx (usubmx X))) (dsubmx X) by rewrite !vsubmxK.
  do 3! split=> //. move=> mu' V' U' _ _ _. apply: (resid_le ES NN). by rewrite -XB XE mulmx0.
- case: (invert_pdmat ln _ false) => [r|//]. by [].
- move=> [<- <- <-] _. do 3! split=> //. move=> mu' V' U' _ -> // -> //. apply: (resid_le ES NN). apply: grad0; rewrite ?subrr ?trmx0 ?mul0mx //.
  set B := hF s - _ - _. rewrite scalerA divff // scale1r /B. set u := hRy1 s *m _. set v := hRz1 s *m _. have -> : u + v + (hF s - u - v) - hF s = 0; last by rewrite mulmx0.
  rewrite -[hF s - u - v]addrA -opprD [_ + (hF s - _)]addrC subrK. exact: subrr.
- case E: (invert_pdmat ln _ false) => [r|//] /= [<- <- <-] _. have [_ [_ [_ LT]]] := inv_found LN BS E. set B := col_mx (_ - _) _. have XE := LT _ B. set X := p_left r B in XE *.
  do 3! split=> //. move=> mu' V' U' -> // _ _. apply: (resid_le ES NN). move: XE. rewrite -[X]vsubmxK mul_block_col /B => /eq_col_mx [E1 E2]. rewrite !col_mxKu !col_mxKd. apply: grad0; rewrite ?E1 ?E2 ?subrK ?subrr ?mulmx0 //. by rewrite trmx0 mul0mx.
- case: (invert_pdmat ln _ false) => [r|//] /=. by case: (invert_pdmat ln _ false).
- case E: (invert_pdmat ln _ false) => [r|//] /= [<- <- <-] _. have [_ [_ [_ LT]]] := inv_found LN ZS E. 
  do 3! split=> //. move=> mu' V' U' -> // -> // _. apply: (resid_le ES NN). apply: grad0; rewrite ?subrr ?trmx0 ?mul0mx // LT.
  set u := _^T *m g_V p. set v := _^T *m g_mu p. have -> : u + ((hCz s)^T - u - v) + v - (hCz s)^T = 0; last by rewrite mulmx0.
  rewrite -[u + _ + v]addrA subrK [u + _]addrC subrK. exact: subrr.
- move=> [<- <- <-] _. do 3! split=> //. move=> mu' V' U' -> // -> // -> //.
Qed.
End Best.
(** the M step: mu, V and U minimise, among all the values allowed by the update flags, every diagonal entry of the expected outer products of the
    residuals; the new precisions are the inverses of the minimal mean squared residuals, floored *)
Theorem C117_MstepML : is_log ln -> forall K e f d (p p' : gplda F e f d) (cls : 'I_K -> seq (F * 'rV[F]_d)) A Az cf s,
  expected p cls A Az s -> (forall k, nonneg (cls k)) -> 0 < \sum_k total (cls k) -> ~~ [&& v_mu cf, v_V cf & ~~ v_U cf] -> g_MstepML ln cf p s = ok p' ->
  (v_mu cf = false -> g_mu p' = g_mu p) /\ (v_V cf = false -> g_V p' = g_V p) /\ (v_U cf = false -> g_U p' = g_U p) /\ (v_D cf = false -> g_D p' = g_D p) /\
  (forall mu V U, (v_mu cf = false -> mu = g_mu p) -> (v_V cf = false -> V = g_V p) -> (v_U cf = false -> U = g_U p) ->
    forall j, resid p cls A Az (g_mu p') (g_V p') (g_U p') j j <= resid p cls A Az mu V U j j) /\
  (v_D cf = true -> forall j, (g_D p' 0 j)^-1 = Num.max (v_floor cf) ((\sum_k total (cls k))^-1 * resid p cls A Az (g_mu p') (g_V p') (g_U p') j j)).
Proof.
move=> LN K e f d p p' cls A Az cf s ES NN N0 BAD. rewrite /g_MstepML. case GM: (g_means ln cf p s) => [[[mu V] U]|//] /=. have [H1 [H2 [H3 H4]]] := means_best LN ES NN N0 BAD GM.
set D := (if v_D cf then _ else _). case: (compute_aux ln _) => [aux|//] [<-] /=. do 3! split=> //. split; first by rewrite /D => ->. split=> // UD j.
rewrite /D UD mxE invrK -(resid_eq _ _ _ ES). case: (ES) => -> _. rewrite [_ j j]mxE maxElt ltNge. set u := _^-1 * _. by case: (ltgtP u (v_floor cf)).
Qed.
(** ** One epoch *)
Lemma estep_expected K e f d (p : gplda F e f d) (D : stats F K d) cls b A Az s : is_log ln -> g_ok p -> stats_of cls D -> (forall k, nonneg (cls k)) -> g_mu p = 0 ->
  roots p cls A Az -> g_Estep ln c p D b = ok s -> expected p cls A Az s.
Proof.
move=> LN OK ST NN MU RT E. have [s' [E' H]] := C117_Estep LN b OK ST NN MU RT. move: E'. rewrite E => -[ES]. rewrite -ES in H. clear E ES s'.
case: H => [H1 [_ [H2 [H3 [_ [_ [H4 [H5 [H6 [H7 [H8 [H9 H10]]]]]]]]]]]]. by do 9! split=> //.
Qed.
(** one maximum likelihood epoch from a mean of zero *)
Theorem C117_epoch : is_log ln -> forall K e f d (p p' : gplda F e f d) (D : stats F K d) cls N_is_int A Az cf s, g_ok p -> stats_of cls D -> (forall k, nonneg (cls k)) -> g_mu p = 0 ->
  roots p cls A Az -> 0 < \sum_k total (cls k) -> ~~ [&& v_mu cf, v_V cf & ~~ v_U cf] -> g_Estep ln c p D N_is_int = ok s -> g_MstepML ln cf p s = ok p' ->
  (v_mu cf = false -> g_mu p' = g_mu p) /\ (v_V cf = false -> g_V p' = g_V p) /\ (v_U cf = false -> g_U p' = g_U p) /\ (v_D cf = false -> g_D p' = g_D p) /\
  (forall mu V U, (v_mu cf = false -> mu = g_mu p) -> (v_V cf = false -> V = g_V p) -> (v_U cf = false -> U = g_U p) ->
    forall j, resid p cls A Az (g_mu p') (g_V p') (g_U p') j j <= resid p cls A Az mu V U j j) /\
  (v_D cf = true -> forall j, (g_D p' 0 j)^-1 = Num.max (v_floor cf) ((\sum_k total (cls k))^-1 * resid p cls A Az (g_mu p') (g_V p') (g_U p') j j)).
Proof.
move=> LN K e f d p p' D cls b A Az cf s OK ST NN MU RT N0 BAD ES MS. apply: (C117_MstepML LN (estep_expected LN OK ST NN MU RT ES) NN N0 BAD MS).
Qed.
(** with update_V alone, or update_mu and update_U without update_V, the M step never succeeds; with update_mu and update_V without update_U it leaves the means as they were *)
Theorem C117_flags_refuted : forall e f d (p p' : gplda F e f d) cf s, g_MstepML ln cf p s = ok p' ->
  ~~ [&& ~~ v_mu cf, v_V cf & ~~ v_U cf] /\ ~~ [&& v_mu cf, ~~ v_V cf & v_U cf] /\ ([&& v_mu cf, v_V cf & ~~ v_U cf] -> g_mu p' = g_mu p /\ g_V p' = g_V p /\ g_U p' = g_U p).
Proof.
move=> e f d p p' cf s. rewrite /g_MstepML /g_means. case: (v_mu cf); case: (v_V cf); case: (v_U cf) => //=.
- case: (compute_aux ln _) => [aux|//] [<-]. by [].
- by case: (invert_pdmat ln _ false).
- case: (invert_pdmat ln _ false) => [r|//] /=. by case: (invert_pdmat ln _ false).
Qed.
(** line 214 of the E step: the error made when the mean is not zero. The expectation needs F^T mu; the code subtracts F . mu from every entry *)
Lemma over_Cz_gen K e f d (p : gplda F e f d) (cls : 'I_K -> seq (F * 'rV[F]_d)) A Az : let Bz := diag_mx (g_D p) *m (g_U p)^T *m invmx (Lz p) in
  over p cls A Az (fun x y z => x^T *m z) = (\sum_k second (cls k) - (\sum_k first (cls k))^T *m g_mu p) *m Bz - over p cls A Az (fun x y z => x^T *m y) *m (g_V p *m Bz).
Proof.
move=> Bz. rewrite over_Cy mulmxBl trmx_sum !mulmx_suml -sumrB -sumrB. apply: eq_bigr => k _. rewrite -w_s -[_ *m g_mu p *m Bz]mulmxA -[(first _)^T *m (g_mu p *m Bz)]w_tr -[_ *m _ *m (g_V p *m Bz)]mulmxA -[(first _)^T *m (_ *m (g_V p *m Bz))]w_tr -!sumrB.
apply: eq_bigr => o _. by rewrite Eyz_l E_z -/Bz mulmxBr mulmxBl mulmxBr !scalerBr.
Qed.
Theorem C117_Cz_error : is_log ln -> forall K e f d (p : gplda F e f d) (D : stats F K d) cls b A Az, g_ok p -> stats_of cls D -> (forall k, nonneg (cls k)) -> (forall k, total (cls k) = 1) ->
  exists s, g_Estep ln c p D b = ok s /\ let Ft := \sum_k first (cls k) in
  hCz s = over p cls A Az (fun x y z => x^T *m z) + (Ft^T *m g_mu p - const_mx (\sum_j Ft 0 j * g_mu p 0 j)) *m (diag_mx (g_D p) *m (g_U p)^T *m invmx (Lz p)).
Proof.
move=> LN K e f d p D cls b A Az OK ST NN ONE. set q := g_splda p. have PW : posdef (s_W q) by exact: Wg_pos.
have SE := s_estep_ok c b LN PW ST NN (or_intror ONE).
have PE : g_compute_py_g_x ln c p D b = s_compute_py_g_x ln c q D b by exact: g_posterior_eq.
have DU : (g_U p *m diag_mx (g_D p))^T = diag_mx (g_D p) *m (g_U p)^T by rewrite trmx_mul tr_diag_mx.
have [z [EZ [RZ _]]] := (C73_invert_pdmat LN true (Lz_pos OK).1).2 (Lz_pos OK).
have PR : forall a (X : 'M[F]_(a, f)), p_right z X = X *m invmx (Lz p) by move=> a X; rewrite -[LHS](mulmxK (posdef_unit (Lz_pos OK))) RZ.
rewrite /g_Estep PE. move: SE. rewrite /s_Estep. case: (s_compute_py_g_x ln c q D b) => [r|] //= -[E1 E2 E3 E4 E5 E6 E7 E8 E9].
rewrite -[g_U p *m diag_mx (g_D p) *m (g_U p)^T]mulmxA -/(Lz p) EZ /=. eexists. split; first by []. cbv zeta. rewrite /= !PR DU E2 E3 E8 over_Cz_gen over_Cy.
set S0 := \sum_k second _. set F0 := \sum_k first _. set C0 := \sum_k _ *m _.
clearbody C0 S0 F0. clear. set X := const_mx _. set Y := F0^T *m _. clearbody X Y. set B := diag_mx _ *m _. clearbody B. rewrite !mulmxBl !mulmxA. move: (S0 *m B *m _) (X *m B *m _) (C0 *m g_V p *m B *m _) (Y *m B *m _) => a x u y.
apply/matrixP => i j. rewrite !mxE. have Q : forall a x u y : F, a - x - u = a - y - u + (y - x) by fr. exact: Q.
Qed.
Theorem C117_Cz_refuted : is_log ln -> exists (p : gplda F 1 1 2) (D : stats F 1 2) cls, g_ok p /\ stats_of cls D /\ (forall k, nonneg (cls k)) /\
  forall A Az b, exists s, g_Estep ln c p D b = ok s /\ hCz s <> over p cls A Az (fun x y z => x^T *m z).
Proof.
move=> LN. pose x : 'rV[F]_2 := delta_mx 0 0. pose p : gplda F 1 1 2 := GPlda x 0 x (const_mx 1). pose cls (k : 'I_1) := [:: (1 : F, x)].
exists p, (Stats (const_mx 1) (x : 'M[F]_(1, 2)) (x^T *m x)), cls. have OK : g_ok p by move=> j; rewrite mxE ltr01.
have ST : stats_of cls (Stats (const_mx 1) (x : 'M[F]_(1, 2)) (x^T *m x)).
  split; first by move=> k; rewrite /= mxE /total big_seq1. split; first by move=> k; rewrite ord1 /first big_seq1 /= scale1r; apply/rowP => j; rewrite mxE.
  by rewrite big_ord1 /second big_seq1 /= scale1r.
have NN : forall k, nonneg (cls k) by move=> k o; rewrite inE => /eqP ->; exact: ler01. split=> //. split=> //. split=> // A Az b.
have [|s [E H]] := C117_Cz_error LN b A Az OK ST NN; first by move=> k; rewrite /total big_seq1. exists s. split=> //. rewrite {}H big_ord1 /first big_seq1 /= scale1r => /eqP. rewrite -subr_eq0 addrAC subrr add0r => /eqP Z.
have LE : Lz p = 2%:R%:M.
  apply/matrixP => i j. rewrite !ord1 /Lz !mxE big_ord_recl big_ord1 !mxE !big_ord_recl !big_ord0 !mxE /= ?eqxx ?mul1r ?mulr1 ?mulr0 ?addr0 ?mul0r ?mulr1n ?mulr0n ?mul1r. by rewrite addr0.
have := congr1 (fun X : 'M[F]_(2, 1) => (X *m Lz p) 1 0) Z. rewrite mul0mx [RHS]mxE mulmxA -mulmxA mulVmx ?posdef_unit //; last exact: Lz_pos. rewrite mulmx1.
rewrite !mxE !big_ord_recl !big_ord0 !mxE !big_ord_recl !big_ord0 !mxE /= ?eqxx ?mul1r ?mulr1 ?mulr0 ?addr0 ?mul0r ?mulr1n ?mulr0n ?mul1r ?sub0r ?add0r ?addr0 ?mulr0. 
rewrite mulr1 addr0 => /eqP. by rewrite oppr_eq0 oner_eq0.
Qed.
(** the hypotheses are met: one class of one observation, one dimension for each factor, updates of everything *)
Example C117_witness : log_ok ln -> let p : gplda F 1 1 2 := GPlda 0 (delta_mx 0 0) (delta_mx 0 1) (const_mx 1) in let x : 'rV[F]_2 := const_mx 1 in
  let cls (k : 'I_1) := [:: (1 : F, x)] in let D := Stats (const_mx 1) (x : 'M[F]_(1, 2)) (x^T *m x) in
  g_ok p /\ stats_of cls D /\ (forall k, nonneg (cls k)) /\ 0 < \sum_k total (cls k) /\ exists A Az s, roots p cls A Az /\ g_Estep ln c p D true = ok s /\ expected p cls A Az s /\ exists p', g_MstepML ln (GConfig true false false true 1) p s = ok p'.
Proof.
move=> LO p x cls D. have OK : g_ok p by move=> j; rewrite mxE ltr01.
have ST : stats_of cls D.
  split; first by move=> k; rewrite /= mxE /total big_seq1. split; first by move=> k; rewrite ord1 /first big_seq1 /= scale1r; apply/rowP => j; rewrite !mxE.
  by rewrite big_ord1 /second big_seq1 /= scale1r.
have NN : forall k, nonneg (cls k) by move=> k o; rewrite inE => /eqP ->; exact: ler01.
split=> //. split=> //. split=> //. split; first by rewrite big_ord1 /total big_seq1 ltr01.
have [A RA] := root_ex (s_L_ok (Wg_pos OK : posdef (s_W (g_splda p))) (NN 0)). have [Az RZ] := root_ex (Lz_pos OK).
have RT : roots p cls (fun _ => A) Az by split=> // k; rewrite ord1. have [s [E _]] := C117_Estep LO.1 true OK ST NN (erefl _) RT. exists (fun _ => A), Az, s. split=> //. split=> //.
have ES := estep_expected LO.1 OK ST NN (erefl _) RT E. split=> //. rewrite /g_MstepML /g_means /=. set p' := GPlda _ _ _ _. have OK' : g_ok p'.
  move=> j. rewrite /= mxE invr_gt0. case: (ltP _ 1) => H; [exact: ltr01|exact: (lt_le_trans ltr01 H)].
rewrite (aux_ok OK' LO.1) /=. by exists p'.
Qed.
End P.
Print Assumptions C117_Estep. Print Assumptions C117_epoch. Print Assumptions C117_Cz_refuted. Print Assumptions C117_flags_refuted.
