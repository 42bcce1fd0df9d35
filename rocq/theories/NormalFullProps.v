(** C94: full-covariance Gaussian (Normal). *)
From Coq Require Reals Lia.
From Verif Require Base SymMat SymMatProps.
From Verif Require Import RingF LinAlg LinAlgProps GaussLa FrpldaCex NormalFull.
Set Warnings "-notation-overridden,-ambiguous-paths".
From mathcomp Require Import all_ssreflect all_algebra.
Set Implicit Arguments. Unset Strict Implicit. Unset Printing Implicit Defensive.
Import Order.TTheory GRing.Theory Num.Theory.
Local Open Scope ring_scope.

Lemma lmap A B (f : A -> B) s : List.map f s = [seq f x | x <- s]. Proof. by elim: s => //= x s ->. Qed.
Lemma lseq a n : List.seq a n = iota a n. Proof. by elim: n a => //= n IH a; rewrite IH. Qed.
Lemma lflat A B (f : A -> seq B) s : List.flat_map f s = flatten [seq f x | x <- s]. Proof. by elim: s => //= x s ->. Qed.
Lemma llen A (s : seq A) : List.length s = size s. Proof. by elim: s => //= x s ->. Qed.
Lemma triuE n : SymMat.triu n = flatten [seq [seq (i, j) | j <- iota i (n - i)] | i <- iota 0 n].
Proof. rewrite /SymMat.triu lflat lseq. congr flatten. Qed.

Section P.
Variable F : rcfType.
Add Ring FRing' : (F_ring F). Add Ring FZRing' : (F_zring F). Add Field FField' : (F_field F). Add Field FZField' : (F_zfield F).
Variable ln : F -> F.
Variable c : F.

Lemma big_triu n (g : nat -> nat -> F) : \sum_(p <- SymMat.triu n) g p.1 p.2 = \sum_(i < n) \sum_(j < n | (i <= j)%N) g i j.
Proof.
rewrite triuE big_flatten big_map. have -> : iota 0 n = index_iota 0 n by rewrite /index_iota subn0. rewrite big_mkord. apply: eq_bigr => i _.
rewrite big_map /=. exact: (big_geq_mkord _ _ xpredT (fun j => g i j)).
Qed.
Lemma at2E n (A : 'M[F]_n) (i j : 'I_n) : at2 A i j = A i j.
Proof. by rewrite /at2 !valK. Qed.
(** s2v as a map over the upper triangle *)
Lemma s2vE n (A : 'M[F]_n) df : s2v A df = [seq (if df is Some d then if p.1 == p.2 then at2 A p.1 p.2 * d else at2 A p.1 p.2 else at2 A p.1 p.2) | p <- SymMat.triu n].
Proof.
rewrite /s2v /SymMat.symmat2vec /SymMat.gather2 lmap /=. apply: eq_map => -[i j] /=. by case: df.
Qed.
Lemma size_triu n : size (SymMat.triu n) = ((n * n.+1)./2)%N.
Proof.
have := SymMatProps.triu_length n. rewrite llen => H. have E : (n * n.+1 = (size (SymMat.triu n)).*2)%N.
  rewrite -mul2n. have -> : (2 * size (SymMat.triu n))%N = (PeanoNat.Nat.mul 2 (size (SymMat.triu n)))%coq_nat by []. rewrite H. by rewrite -addn1.
by rewrite E doubleK.
Qed.
Lemma size_s2v n (A : 'M[F]_n) df : size (s2v A df) = ((n * n.+1)./2)%N. Proof. by rewrite s2vE size_map size_triu. Qed.
Lemma size_stack n (f : 'rV[F]_n) s : size (stack f s) = (n + size s)%N. Proof. by rewrite /stack size_cat size_map size_enum_ord. Qed.
Lemma unstackK n (f : 'rV[F]_n) s : unstack n (stack f s) = (f, s).
Proof.
rewrite /unstack /stack. have Z : size [seq f 0 i | i <- enum 'I_n] = n by rewrite size_map size_enum_ord. congr pair; last by rewrite drop_size_cat.
apply/rowP => i. rewrite mxE nth_cat Z ltn_ord (nth_map i) ?size_enum_ord // nth_ord_enum. by [].
Qed.
Lemma v2s_s2v n (A : 'M[F]_n) : A^T = A -> v2s n (s2v A None) None = ok A.
Proof.
move=> SY. have [|_ [B [E [D V]]]] := @SymMatProps.C47_symmetric F 0 *%R (sq A) false.
  move=> i j /= /ssrnat.ltP I /ssrnat.ltP J. have := at2E A (Ordinal I) (Ordinal J). rewrite /= => ->. have := at2E A (Ordinal J) (Ordinal I). rewrite /= => ->. by rewrite -{1}SY mxE.
rewrite /v2s /s2v E /= D /= eqxx. congr ok. apply/matrixP => i j. rewrite mxE V /=; [exact: at2E|exact/ssrnat.ltP|exact/ssrnat.ltP].
Qed.
Lemma v2s_s2v2 n (A : 'M[F]_n) a b : a * b = 1 -> A^T = A -> v2s n (s2v A (Some a)) (Some b) = ok A.
Proof.
move=> AB SY. have [||B [E [D V]]] := @SymMatProps.C47_diag_factor F 0 *%R (sq A) false a b.
- move=> x. by rewrite -mulrA AB mulr1.
- move=> i j /= /ssrnat.ltP I /ssrnat.ltP J. have := at2E A (Ordinal I) (Ordinal J). rewrite /= => ->. have := at2E A (Ordinal J) (Ordinal I). rewrite /= => ->. by rewrite -{1}SY mxE.
rewrite /v2s /s2v E /= D /= eqxx. congr ok. apply/matrixP => i j. rewrite mxE V /=; [exact: at2E|exact/ssrnat.ltP|exact/ssrnat.ltP].
Qed.
Lemma at2_lin n (A : 'M[F]_n) (f : F -> F) i j : f 0 = 0 -> f (at2 A i j) = at2 (map_mx f A) i j.
Proof. move=> F0. rewrite /at2. case: insubP => // i' _ _. case: insubP => // j' _ _. by rewrite mxE. Qed.
Lemma s2v_opp n (A : 'M[F]_n) df : [seq - z | z <- s2v A df] = s2v (- A) df.
Proof.
have -> : - A = map_mx (fun z => - z) A by apply/matrixP => i j; rewrite !mxE.
rewrite !s2vE -map_comp. apply: eq_map => -[i j] /=. rewrite -(at2_lin A (f := fun z => - z)) ?oppr0 //. case: df => // d. by case: ifP; rewrite ?mulNr.
Qed.
Lemma s2v_div n (A : 'M[F]_n) N : [seq z / N | z <- s2v A None] = s2v (N^-1 *: A) None.
Proof.
have -> : N^-1 *: A = map_mx (fun z => z / N) A by apply/matrixP => i j; rewrite !mxE mulrC.
rewrite !s2vE -map_comp. apply: eq_map => -[i j] /=. by rewrite -(at2_lin A (f := fun z => z / N)) ?mul0r.
Qed.
Lemma at2_sum n m (A : 'I_m -> 'M[F]_n) (w : 'I_m -> F) a b : at2 (\sum_i w i *: A i) a b = \sum_i w i * at2 (A i) a b.
Proof.
rewrite /at2. case: insubP => [i' _ _|_]; last by rewrite big1 // => i _; rewrite mulr0. case: insubP => [j' _ _|_]; last by rewrite big1 // => i _; rewrite mulr0.
rewrite summxE. by apply: eq_bigr => k _; rewrite mxE.
Qed.

(** ** Inner products with statistics *)
Lemma inner_stack n (f g : 'rV[F]_n) s t : inner (stack f s) (stack g t) = dot f g + inner s t.
Proof.
rewrite /inner /stack zip_cat ?size_map // big_cat /=. congr (_ + _). rewrite zip_map big_map big_enum /= /dot mxE. apply: eq_bigr => i _. by rewrite mxE.
Qed.
Definition quad {n} (L A : 'M[F]_n) : F := \sum_i \sum_j L i j * A i j.
Lemma quad_half n (L A : 'M[F]_n) : L^T = L -> A^T = A -> inner (s2v A None) (s2v L (Some 2%:R^-1)) = 2%:R^-1 * quad L A.
Proof.
move=> SL SA. rewrite /inner !s2vE zip_map big_map /=.
rewrite (big_triu n (fun i j => at2 A i j * (if i == j then at2 L i j * 2%:R^-1 else at2 L i j))).
have Lij : forall i j, L i j = L j i by move=> i j; rewrite -{1}SL mxE. have Aij : forall i j, A i j = A j i by move=> i j; rewrite -{1}SA mxE.
have -> : quad L A = \sum_(i < n) \sum_(j < n | (i <= j)%N) L i j * A i j + \sum_(i < n) \sum_(j < n | (i < j)%N) L i j * A i j.
  have -> : \sum_(i < n) \sum_(j < n | (i < j)%N) L i j * A i j = \sum_(i < n) \sum_(j < n | ~~ (i <= j)%N) L i j * A i j.
    rewrite (exchange_big_dep xpredT) //=. apply: eq_bigr => i _. apply: eq_big => j; [by rewrite -ltnNge|by rewrite Lij Aij].
  rewrite -big_split /=. apply: eq_bigr => i _. by rewrite (bigID (fun j : 'I_n => (i <= j)%N)).
rewrite -big_split mulr_sumr /=. apply: eq_bigr => i _. rewrite mulrDr !mulr_sumr.
rewrite [X in _ + X](eq_bigl (fun j : 'I_n => (i <= j)%N && (i != j))); last by move=> j; rewrite ltn_neqAle andbC.
rewrite [X in _ + X]big_mkcondr /= -big_split /=. apply: eq_bigr => j _. rewrite !at2E. rewrite -[nat_of_ord i == nat_of_ord j]/(i == j).
case: (i =P j) => _ /=; last by have R1 : forall a b : F, a * b = 2%:R^-1 * (b * a) + 2%:R^-1 * (b * a) by ff; exact: R1.
have R1 : forall a b : F, a * (b * 2%:R^-1) = 2%:R^-1 * (b * a) + 0 by fr. exact: R1.
Qed.
Lemma inner_oppr (a b : seq F) : inner a [seq - z | z <- b] = - inner a b.
Proof. rewrite /inner. elim: a b => [|x a IH] [|y b] /=; rewrite ?big_nil ?oppr0 // !big_cons IH /= mulrN opprD. by []. Qed.
Lemma quad_outer n (L : 'M[F]_n) x : quad L (x^T *m x) = form L x x.
Proof.
rewrite /quad /form mxE. rewrite exchange_big /=. apply: eq_bigr => j _. rewrite [(x *m L) _ _]mxE [_^T _ _]mxE mulr_suml. apply: eq_bigr => i _. rewrite !mxE big_ord1 !mxE.
by rewrite mulrA [L i j * _]mulrC.
Qed.
Lemma nat_inner n (f mu : 'rV[F]_n) (A L : 'M[F]_n) : L^T = L -> A^T = A -> inner (stack f (s2v A None)) (compute_eta mu L) = dot f (mu *m L) - 2%:R^-1 * quad L A.
Proof. move=> SL SA. by rewrite /compute_eta inner_stack inner_oppr quad_half. Qed.
Lemma suffE n (x : 'rV[F]_n) : suff x = stack x (s2v (x^T *m x) None).
Proof. by rewrite /suff s2vE. Qed.
Lemma outer_sym n (x : 'rV[F]_n) : (x^T *m x)^T = x^T *m x. Proof. by rewrite trmx_mul trmxK. Qed.
Lemma sum_sym n m (A : 'I_m -> 'M[F]_n) (w : 'I_m -> F) : (forall i, (A i)^T = A i) -> (\sum_i w i *: A i)^T = \sum_i w i *: A i.
Proof. move=> H. rewrite linear_sum /=. apply: eq_bigr => i _. by rewrite linearZ /= H. Qed.

(** sums of statistics *)
Lemma sum_suff m n (x : 'I_m -> 'rV[F]_n) (w : 'I_m -> F) :
  sum_stats (dim_u n) (fun i => suff (x i)) w = stack (\sum_i w i *: x i) (s2v (\sum_i w i *: ((x i)^T *m x i)) None).
Proof.
apply: (@eq_from_nth _ 0); first by rewrite size_mkseq size_stack size_s2v.
move=> k; rewrite size_mkseq => K. rewrite nth_mkseq //. rewrite /stack nth_cat size_map size_enum_ord.
case: ifP => KN.
  rewrite (nth_map (Ordinal KN)) ?size_enum_ord // (_ : nth _ (enum 'I_n) k = Ordinal KN); last by apply: val_inj; rewrite /= nth_enum_ord.
  rewrite summxE. apply: eq_bigr => i _. rewrite mxE suffE /stack nth_cat size_map size_enum_ord KN (nth_map (Ordinal KN)) ?size_enum_ord //.
  by rewrite (_ : nth _ (enum 'I_n) k = Ordinal KN) //; apply: val_inj; rewrite /= nth_enum_ord.
have KS : (k - n < size (SymMat.triu n))%N by rewrite size_triu ltn_subLR // leqNgt KN.
rewrite s2vE (nth_map (0%N, 0%N)) // at2_sum. apply: eq_bigr => i _. by rewrite suffE /stack nth_cat size_map size_enum_ord KN s2vE (nth_map (0%N, 0%N)).
Qed.

(** ** Specification *)
(** total weight, weighted mean and weighted covariance of the rows of X; without weights every sample weighs 1 *)
Definition weight {m} (w : option 'rV[F]_m) : F := \sum_i wt w i.
Definition wmean {m n} (X : 'M[F]_(m, n)) (w : option 'rV[F]_m) : 'rV[F]_n := (weight w)^-1 *: \sum_i wt w i *: row i X.
Definition wcov {m n} (X : 'M[F]_(m, n)) (w : option 'rV[F]_m) : 'M[F]_n :=
  (weight w)^-1 *: \sum_i wt w i *: ((row i X - wmean X w)^T *m (row i X - wmean X w)).
(** log-likelihood of the data *)
Definition log_lik {m n} (X : 'M[F]_(m, n)) (w : option 'rV[F]_m) (P : 'M[F]_n) (mu : 'rV[F]_n) : F := \sum_i wt w i * log_gauss ln c P mu (row i X).

(** ** Density *)
Lemma mk_normal_ok n (mu : 'rV[F]_n) (L : 'M[F]_n) : is_log ln -> posdef L ->
  mk_normal ln c mu L = ok (MkN mu L (compute_eta mu L) (2%:R^-1 * n%:R * c + - (2%:R^-1 * ln (\det L)) + 2%:R^-1 * form L mu mu)).
Proof. move=> LG D. have [H _] := C73_logdet LG D.1. by rewrite /mk_normal /A_std (H D).2. Qed.
Lemma log_prob_nat_ok n (mu x : 'rV[F]_n) (L : 'M[F]_n) : L^T = L ->
  inner (suff x) (compute_eta mu L) - (2%:R^-1 * n%:R * c + - (2%:R^-1 * ln (\det L)) + 2%:R^-1 * form L mu mu) = log_gauss ln c L mu x.
Proof.
move=> SL. rewrite suffE nat_inner ?outer_sym // quad_outer /log_gauss form_sub // dotC -form_dot.
set d := form L mu x. set a := form L x x. set b := form L mu mu. set l := ln _.
have R1 : forall d a b l k c : F, d - 2%:R^-1 * a - (2%:R^-1 * k * c + - (2%:R^-1 * l) + 2%:R^-1 * b) = 2%:R^-1 * (l - k * c - (a - 2%:R * d + b)) by ff. exact: R1.
Qed.
(** log_prob, from the natural and from the standard parameters, is the logarithm of the Gaussian density; a precision that is not positive
    definite is refused. *)
Theorem C94_density : is_log ln -> forall n (mu : 'rV[F]_n) (L : 'M[F]_n), L^T = L ->
  (posdef L -> exists g, mk_normal ln c mu L = ok g /\ n_mu g = mu /\ n_L g = L /\
     forall x, log_prob_nat g x = log_gauss ln c L mu x /\ log_prob_std ln c g x = ok (log_gauss ln c L mu x)) /\
  (~ posdef L -> mk_normal ln c mu L = err linalg_error).
Proof.
move=> LG n mu L SL. split.
- move=> D. eexists. split; first by rewrite mk_normal_ok. split=> //. split=> // x. split; first by rewrite /log_prob_nat /= log_prob_nat_ok.
  rewrite /log_prob_std /=. have [_ /(_ D) [p [E [_ [_ [_ [LD CH]]]]]]] := C73_invert_pdmat LG false SL. rewrite E /=. congr ok.
  have [_ [_ G]] := (C73_cholesky SL).2.2 _ CH. rewrite -form_sq trmxK G LD /log_gauss.
  have R1 : forall l k c a : F, 2%:R^-1 * l - 2%:R^-1 * k * c - 2%:R^-1 * a = 2%:R^-1 * (l - k * c - a) by fr. exact: R1.
- move=> ND. by rewrite /mk_normal /A_std (C73_logdet LG SL).2.
Qed.

(** ** Natural and standard parameters *)
Lemma half_posdef n (L : 'M[F]_n) : posdef L -> posdef (2%:R^-1 *: L).
Proof. move=> D. split; first by rewrite linearZ /= D.1. move=> v V. rewrite formPZ mulr_gt0 ?invr_gt0 ?ltr0n //. exact: D.2. Qed.
Lemma nat_parts n (mu : 'rV[F]_n) (L : 'M[F]_n) : is_log ln -> posdef L ->
  unstack n (compute_eta mu L) = (mu *m L, [seq - z | z <- s2v L (Some 2%:R^-1)]) /\ v2s n [seq - z | z <- s2v L (Some 2%:R^-1)] (Some 2%:R) = ok (- L) /\
  exists p, invert_pdmat ln (- (2%:R^-1 *: - L)) true = ok p /\ p_right p (mu *m L) = 2%:R *: mu /\ p_logdet p = ln (\det L) - n%:R * ln 2%:R.
Proof.
move=> LG D. split; first by rewrite unstackK. split; first by rewrite s2v_opp v2s_s2v2 ?mulVf ?two_neq0 // linearN /= D.1.
have EL : - (2%:R^-1 *: - L) = 2%:R^-1 *: L by rewrite scalerN opprK. rewrite EL.
have DH := half_posdef D. have [_ /(_ DH) [p [E [RI [_ [_ [LD _]]]]]]] := C73_invert_pdmat LG true DH.1. exists p. split=> //. split.
- have U := posdef_unit D. have := RI _ (mu *m L). rewrite -scalemxAr => Q. have := congr1 (fun M => 2%:R *: (M *m invmx L)) Q. by rewrite -scalemxAl scalerA mulfV ?two_neq0 // scale1r !mulmxK.
- rewrite LD detZ. have DP := det_pos D. have P2 : 0 < 2%:R^-1 :> F by rewrite invr_gt0 ltr0n. rewrite LG ?exprn_gt0 //.
  have LE : forall k, ln (2%:R^-1 ^+ k) = - (k%:R * ln 2%:R).
    elim=> [|k IH]; first by rewrite expr0 (ln_1 LG) mul0r oppr0. rewrite exprS LG ?exprn_gt0 // IH (ln_inv LG) ?ltr0n //. by rewrite -[k.+1]addn1 natrD mulr1n mulrDl mul1r opprD addrC.
  rewrite LE addrC. by [].
Qed.
Theorem C94_parameters : is_log ln -> forall n (mu : 'rV[F]_n) (L : 'M[F]_n), posdef L ->
  compute_std ln n (compute_eta mu L) = ok (mu, L) /\ A_nat ln c n (compute_eta mu L) = A_std ln c mu L /\
  mk_normal_nat ln c n (compute_eta mu L) = mk_normal ln c mu L /\ x_dim_of_eta (size (compute_eta mu L)) = ok n.
Proof.
move=> LG n mu L D. have [E1 [E2 [p [E3 [PR PL]]]]] := nat_parts mu LG D.
have ST : compute_std ln n (compute_eta mu L) = ok (mu, L).
  rewrite /compute_std E1 E2 /= E3 /= PR. by rewrite !scalerA mulVf ?two_neq0 // scale1r scalerN opprK mulfV ?two_neq0 // scale1r.
have AN : A_nat ln c n (compute_eta mu L) = A_std ln c mu L.
  rewrite /A_nat E1 E2 /= E3 /= PR PL /A_std ((C73_logdet LG D.1).1 D).2 /=. congr ok. rewrite -scalemxAl mxE -/(dot _ _) dotC -/(form L mu mu) -form_dot.
  have R0 : 4%:R^-1 = 2%:R^-1 * 2%:R^-1 :> F by rewrite -invfM -natrM.
  have R4 : forall b : F, 4%:R^-1 * (2%:R * b) = 2%:R^-1 * b by move=> b0; rewrite R0 -mulrA mulKf ?two_neq0.
  rewrite R4. have R1 : forall k c l b t : F, 2%:R^-1 * k * c + 2%:R^-1 * b + (- (2%:R^-1 * k * t) - 2%:R^-1 * (l - k * t)) = 2%:R^-1 * k * c + - (2%:R^-1 * l) + 2%:R^-1 * b by fr. exact: R1.
split=> //. split=> //. have SZ : size (compute_eta mu L) = dim_u n by rewrite /compute_eta size_stack size_map size_s2v. split.
- rewrite /mk_normal_nat SZ eqxx AN ST /mk_normal. by case: (A_std _ _ _ _).
- rewrite SZ /x_dim_of_eta. have E : (9 + 8 * dim_u n = (2 * n + 3) * (2 * n + 3))%N.
    rewrite /dim_u. have H : ((n * n.+1)./2.*2 = n * n.+1)%N by rewrite -[RHS]odd_double_half oddM /= andbN.
    apply/eqP. have Q : (8 * (n * n.+1)./2 = 4 * (n * n.+1))%N by rewrite -{2}H -mul2n mulnA. rewrite mulnDr Q. apply/eqP. rewrite -!multE -!plusE. Lia.nia.
  have -> : Nat.sqrt (9 + 8 * dim_u n) = (2 * n + 3)%N by rewrite E; exact: PeanoNat.Nat.sqrt_square.
  rewrite E eqxx /= addnK mul2n odd_double doubleK. by [].
Qed.

(** ** Statistics and likelihood *)
Lemma sum_rows_w m n (X : 'M[F]_(m, n)) (w : 'I_m -> F) : (\matrix_(i, j) (w i * X i j))^T *m X = \sum_i w i *: ((row i X)^T *m row i X).
Proof. apply/matrixP => a b. rewrite summxE mxE. apply: eq_bigr => i _. by rewrite !mxE big_ord1 !mxE mulrA. Qed.
Lemma accum_form m n (X : 'M[F]_(m, n)) w : accum X w = (weight w, stack (\sum_i wt w i *: row i X) (s2v (\sum_i wt w i *: ((row i X)^T *m row i X)) None)).
Proof.
have CG : forall (a a' : F) (f f' : 'rV[F]_n) (A A' : 'M[F]_n), a = a' -> f = f' -> A = A' -> (a, stack f (s2v A None)) = (a', stack f' (s2v A' None)) by move=> a a' f f' A A' -> -> ->.
case: w => [w|] /=; apply: CG => //.
- apply: eq_bigr => i _. by apply/rowP => j; rewrite !mxE.
- exact: (sum_rows_w X (fun i => w 0 i)).
- by rewrite /weight /= sumr_const card_ord.
- by apply: eq_bigr => i _; rewrite scale1r.
- rewrite -sum_rows_w. congr (_^T *m _). by apply/matrixP => i j; rewrite !mxE mul1r.
Qed.
(** The accumulated statistics are the weighted sums of the statistics of the samples. *)
Theorem C94_stats : forall m n (X : 'M[F]_(m, n)) w,
  accum X w = accum_u (dim_u n) (fun i => suff (row i X)) w /\
  accum X w = (weight w, sum_stats (dim_u n) (fun i => suff (row i X)) (wt w)).
Proof.
move=> m n X w. rewrite accum_form /accum_u !sum_suff. split=> //. congr pair. case: w => [w|] //=. by rewrite /weight sumr_const card_ord.
Qed.
Lemma quad_sum m n (L : 'M[F]_n) (A : 'I_m -> 'M[F]_n) w : quad L (\sum_i w i *: A i) = \sum_i w i * quad L (A i).
Proof.
rewrite /quad. under [RHS]eq_bigr do rewrite mulr_sumr. rewrite [RHS]exchange_big /=. apply: eq_bigr => a _. under [RHS]eq_bigr do rewrite mulr_sumr. rewrite [RHS]exchange_big /=. apply: eq_bigr => b _.
rewrite summxE mulr_sumr. apply: eq_bigr => i _. by rewrite mxE mulrCA.
Qed.
Lemma dot_sum m n (x : 'I_m -> 'rV[F]_n) w y : dot (\sum_i w i *: x i) y = \sum_i w i * dot (x i) y.
Proof. rewrite /dot mulmx_suml summxE. apply: eq_bigr => i _. by rewrite -scalemxAl mxE. Qed.
Lemma elbo_ok m n (X : 'M[F]_(m, n)) w (mu : 'rV[F]_n) (L : 'M[F]_n) g : is_log ln -> posdef L -> mk_normal ln c mu L = ok g ->
  elbo g (accum X w).1 (accum X w).2 = log_lik X w L mu.
Proof.
move=> LG D. rewrite mk_normal_ok // => -[<-]. rewrite accum_form /elbo /= nat_inner ?D.1 ?sum_sym // => [|i]; last exact: outer_sym.
rewrite quad_sum dot_sum /weight mulr_suml mulr_sumr -sumrB -sumrB. apply: eq_bigr => i _. rewrite -(log_prob_nat_ok mu (row i X) D.1) suffE nat_inner ?outer_sym ?D.1 //.
have R1 : forall w d q a : F, w * d - 2%:R^-1 * (w * q) - w * a = w * (d - 2%:R^-1 * q - a) by fr. exact: R1.
Qed.
(** The elbo of the accumulated statistics is the log-likelihood of the data. *)
Theorem C94_elbo : is_log ln -> forall m n (X : 'M[F]_(m, n)) w (mu : 'rV[F]_n) (L : 'M[F]_n) g, posdef L -> mk_normal ln c mu L = ok g ->
  elbo g (accum X w).1 (accum X w).2 = log_lik X w L mu.
Proof. move=> LG m n X w mu L g D. exact: elbo_ok. Qed.

(** ** Maximum likelihood *)
Lemma quad_tr n (L A : 'M[F]_n) : quad L A = \tr (L *m A^T).
Proof. rewrite /quad /mxtrace. apply: eq_bigr => i _. rewrite mxE. apply: eq_bigr => j _. by rewrite mxE. Qed.
Lemma quadZ n (L A : 'M[F]_n) k : quad L (k *: A) = k * quad L A.
Proof. by rewrite !quad_tr linearZ /= -scalemxAr mxtraceZ. Qed.
Lemma dev_outer n (x u : 'rV[F]_n) k : k *: ((x - u)^T *m (x - u)) = k *: (x^T *m x) - (k *: x)^T *m u - u^T *m (k *: x) + k *: (u^T *m u).
Proof.
apply/matrixP => a b. rewrite !mxE !big_ord1 !mxE. have R1 : forall k a b d e : F, k * ((a - d) * (b - e)) = k * (a * b) - k * a * e - d * (k * b) + k * (d * e) by fr. exact: R1.
Qed.
Lemma cov_moment m n (X : 'M[F]_(m, n)) w : weight w != 0 ->
  (weight w)^-1 *: (\sum_i wt w i *: ((row i X)^T *m row i X)) - (wmean X w)^T *m wmean X w = wcov X w.
Proof.
move=> NZ. rewrite /wcov. set mu := wmean X w. set N := weight w in NZ *.
have EM : \sum_i wt w i *: row i X = N *: mu by rewrite /mu /wmean scalerA mulfV // scale1r.
clearbody mu.
have -> : \sum_i wt w i *: ((row i X - mu)^T *m (row i X - mu)) = \sum_i wt w i *: ((row i X)^T *m row i X) - N *: (mu^T *m mu).
  have -> : \sum_i wt w i *: ((row i X - mu)^T *m (row i X - mu)) =
    \sum_i wt w i *: ((row i X)^T *m row i X) - (\sum_i wt w i *: row i X)^T *m mu - (mu^T *m (\sum_i wt w i *: row i X)) + (\sum_i wt w i) *: (mu^T *m mu).
    rewrite linear_sum /= mulmx_suml mulmx_sumr scaler_suml -!sumrB -big_split /=. apply: eq_bigr => i _.
    exact: dev_outer.
  have TZ : (N *: mu)^T = N *: mu^T by rewrite linearZ. rewrite EM TZ -scalemxAl -scalemxAr. have EN : \sum_i wt w i = N by []. rewrite EN. by rewrite subrK.
by rewrite scalerBr scalerA mulVf // scale1r.
Qed.
Lemma lik_form m n (X : 'M[F]_(m, n)) w (P : 'M[F]_n) (mu : 'rV[F]_n) : P^T = P -> weight w != 0 ->
  log_lik X w P mu = weight w * (2%:R^-1 * (ln (\det P) - n%:R * c - (quad P (wcov X w) + form P (wmean X w - mu) (wmean X w - mu)))).
Proof.
move=> SP NZ. set m0 := wmean X w. set N := weight w in NZ *.
have EM : \sum_i wt w i *: row i X = N *: m0 by rewrite /m0 /wmean scalerA mulfV // scale1r.
have Q : \sum_i wt w i * form P (row i X - mu) (row i X - mu) = N * (quad P (wcov X w) + form P (m0 - mu) (m0 - mu)).
  have -> : N * (quad P (wcov X w) + form P (m0 - mu) (m0 - mu)) = \sum_i wt w i * form P (row i X - m0) (row i X - m0) + N * form P (m0 - mu) (m0 - mu).
    rewrite mulrDr -quadZ /wcov scalerA mulfV // scale1r quad_sum. congr (_ + _). apply: eq_bigr => i _. by rewrite quad_outer.
  have Z : \sum_i wt w i * form P (m0 - mu) (row i X - m0) = 0.
    have -> : \sum_i wt w i * form P (m0 - mu) (row i X - m0) = dot (\sum_i wt w i *: (row i X - m0)) ((m0 - mu) *m P).
      rewrite dot_sum. apply: eq_bigr => i _. by rewrite form_dot dotC.
    have -> : \sum_i wt w i *: (row i X - m0) = 0 by under eq_bigr do rewrite scalerBr; rewrite sumrB EM -scaler_suml subrr.
    by rewrite /dot mul0mx mxE.
  have -> : \sum_i wt w i * form P (row i X - mu) (row i X - mu) =
    \sum_i wt w i * form P (row i X - m0) (row i X - m0) + 2%:R * (\sum_i wt w i * form P (m0 - mu) (row i X - m0)) + \sum_i wt w i * form P (m0 - mu) (m0 - mu).
    rewrite mulr_sumr -!big_split /=. apply: eq_bigr => i _. have -> : row i X - mu = (row i X - m0) + (m0 - mu) by rewrite addrA subrK.
    set u := row i X - m0. set v := m0 - mu. clearbody u v. rewrite formDl !formDr [form P u v]formC //.
    have R1 : forall k a b d : F, k * (a + b + (b + d)) = k * a + 2%:R * (k * b) + k * d by fr. exact: R1.
  by rewrite Z mulr0 addr0 -mulr_suml.
have R2 : forall k a b : F, k * (2%:R^-1 * (a - b)) = 2%:R^-1 * (k * a - k * b) by fr. rewrite R2 -Q.
have EN : forall a, N * a = \sum_i wt w i * a by move=> a; rewrite -mulr_suml. rewrite EN -sumrB mulr_sumr. rewrite /log_lik /log_gauss. apply: eq_bigr => i _. exact: R2.
Qed.
Lemma wcov_sym m n (X : 'M[F]_(m, n)) w : (wcov X w)^T = wcov X w.
Proof. rewrite /wcov linearZ /= sum_sym // => i. exact: outer_sym. Qed.
Lemma wcov_semi m n (X : 'M[F]_(m, n)) w : (forall i, 0 <= wt w i) -> possemi (wcov X w).
Proof.
move=> W. split; first exact: wcov_sym. move=> v. rewrite /wcov formPZ mulr_ge0 // ?invr_ge0 ?sumr_ge0 //.
rewrite /form mulmx_sumr mulmx_suml summxE sumr_ge0 // => i _. rewrite -scalemxAr -scalemxAl mxE mulr_ge0 //.
set y := row i X - _. clearbody y. have -> : v *m (y^T *m y) *m v^T = (v *m y^T) *m (v *m y^T)^T by rewrite trmx_mul trmxK !mulmxA. rewrite mxE big_ord1 [_^T _ _]mxE -expr2. exact: sqr_ge0.
Qed.
Lemma mstep_gen n (g : normal F n) um N f (A : 'M[F]_n) : A^T = A ->
  mstep ln c um true g N (stack f (s2v A None)) = (let mu := if um then N^-1 *: f else n_mu g in let! p := invert_pdmat ln (N^-1 *: A - mu^T *m mu) false in mk_normal ln c mu (p_inv p)).
Proof.
move=> SA. rewrite /mstep unstackK s2v_div v2s_s2v; last by rewrite linearZ /= SA. rewrite /=. by case: (invert_pdmat _ _ _).
Qed.
Lemma mstep_stats m n (X : 'M[F]_(m, n)) w (g : normal F n) : is_log ln -> weight w != 0 ->
  mstep ln c true true g (accum X w).1 (accum X w).2 = (let! p := invert_pdmat ln (wcov X w) false in mk_normal ln c (wmean X w) (p_inv p)).
Proof.
move=> LG NZ. rewrite accum_form mstep_gen; last by apply: sum_sym => i; exact: outer_sym.
by rewrite /= -/(wmean X w) cov_moment.
Qed.
(** Re-estimation: the weighted mean and the inverse of the weighted covariance, which no positive definite precision and mean beat; a data
    set whose covariance is singular is refused. *)
Theorem C94_ml : log_ok ln -> forall m n (X : 'M[F]_(m, n)) w (g : normal F n), (forall i, 0 <= wt w i) -> 0 < weight w ->
  (posdef (wcov X w) -> exists g', fit ln c true true g X w = ok (g', (log_lik X w (n_L g') (n_mu g'), log_lik X w (n_L g') (n_mu g') / weight w)) /\
     n_mu g' = wmean X w /\ n_L g' = invmx (wcov X w) /\ posdef (n_L g') /\
     forall P mu, posdef P -> log_lik X w P mu <= log_lik X w (n_L g') (n_mu g')) /\
  (~ posdef (wcov X w) -> fit ln c true true g X w = err linalg_error).
Proof.
move=> LO m n X w g W0 WP. have LG := LO.1. have NZ : weight w != 0 by rewrite gt_eqF. have E := mstep_stats X g LG NZ.
have FE : fit ln c true true g X w = (let! g' := mstep ln c true true g (accum X w).1 (accum X w).2 in ok (g', (elbo g' (accum X w).1 (accum X w).2, elbo g' (accum X w).1 (accum X w).2 / (accum X w).1))).
  by rewrite /fit; case: (accum X w).
have [N1 P1] := C73_invert_pdmat LG false (wcov_sym X w). rewrite FE E. split.
- move=> D. have [p [EP [_ [_ [IV _]]]]] := P1 D. have DI := posdef_inv D. rewrite EP /=. have -> : p_inv p = invmx (wcov X w) by rewrite -[p_inv p](mulmxK (posdef_unit D)) IV mul1mx.
  have EG := mk_normal_ok (wmean X w) LG DI. set g0 := MkN _ _ _ _ in EG. exists g0. have EB := elbo_ok X w LG DI EG. split; first by rewrite EG -[Verif.Base.bind _ _]/(ok (g0, (elbo g0 (accum X w).1 (accum X w).2, elbo g0 (accum X w).1 (accum X w).2 / (accum X w).1))) EB accum_form.
  split=> //. split=> //. split=> //. move=> P mu DP. rewrite -[n_L g0]/(invmx (wcov X w)) -[n_mu g0]/(wmean X w).
  rewrite !lik_form ?DP.1 ?DI.1 // ler_pmul2l // ler_pmul2l ?invr_gt0 ?ltr0n //. rewrite subrr form0l addr0 !quad_tr wcov_sym mulVmx ?posdef_unit // mxtrace1.
  have := ml_lemma LO DP D. have FP : 0 <= form P (wmean X w - mu) (wmean X w - mu) by exact: (posdef_semi DP).2.
  set t := \tr _. set f := form _ _ _ in FP *. set a := ln _. set b := ln _. move=> H. have R1 : forall a n c t f : F, a - n * c - (t + f) = a - t - n * c - f by fr. rewrite R1.
  apply: (@le_trans _ _ (a - t - n%:R * c)); first by rewrite ger_addl oppr_le0. rewrite addrAC [b - _ - _]addrAC. rewrite -[a - _ - _]addrAC. exact: ler_sub.
- move=> ND. by rewrite (N1 ND).
Qed.

(** ** Where the code fails *)
(** the samples 0 and 2 *)
Definition X2 : 'M[F]_(2, 1) := \matrix_(i, j) (if i == 0 then 0 else 2%:R).
Lemma X2_row i : row i X2 = (if i == 0 then 0 else 2%:R)%:M. Proof. apply/rowP => j. by rewrite !mxE [j]ord1 eqxx mulr1n. Qed.
Lemma X2_weight : weight (@None 'rV[F]_2) = 2%:R. Proof. by rewrite /weight /= sumr_const card_ord. Qed.
Lemma X2_mean : wmean X2 None = 1%:M.
Proof. rewrite /wmean X2_weight !big_ord_recl big_ord0 /= !X2_row /= !scale1r addr0 raddf0 add0r scale_scalar_mx mulVf ?two_neq0 //. Qed.
Lemma X2_cov : wcov X2 None = 1%:M.
Proof.
rewrite /wcov X2_mean X2_weight !big_ord_recl big_ord0 /= !X2_row /= !scale1r addr0. rewrite -!raddfB /= !tr_scalar_mx !sm1 -raddfD /= scale_scalar_mx. congr (_%:M).
have Q : forall a : F, a * (2%:R^-1 * ((0 - 1) * (0 - 1) + (2%:R - 1) * (2%:R - 1))) = a by ff. by have := Q 1; rewrite mul1r.
Qed.
(** With update_mu=False the variance is computed as the second moment minus mu mu', which is not the variance around mu: the samples 0 and 2
    with the mean fixed to 2 give -2 and an error, although their mean square deviation from 2 is 2. *)
Theorem C94_fixed_mean_refuted : is_log ln ->
  exists m n (X : 'M[F]_(m, n)) (g : normal F n), mk_normal ln c (n_mu g) (n_L g) = ok g /\ posdef (n_L g) /\
    fit ln c false true g X None = err linalg_error /\
    posdef ((weight (@None 'rV[F]_m))^-1 *: \sum_i (row i X - n_mu g)^T *m (row i X - n_mu g)).
Proof.
move=> LG. have D1 : posdef (1%:M : 'M[F]_1) by apply: posdef1; exact: ltr01. have EG := mk_normal_ok (2%:R%:M : 'rV[F]_1) LG D1. set g0 := MkN _ _ _ _ in EG.
exists 2%N, 1%N, X2, g0. split=> //. split=> //. split.
- rewrite /fit accum_form mstep_gen; last by apply: sum_sym => i; exact: outer_sym.
  rewrite !big_ord_recl big_ord0 /= !X2_row /= !scale1r addr0 X2_weight !tr_scalar_mx !sm1 -raddfD /= scale_scalar_mx -raddfB /=.
  set k := (X in X%:M). have K : k < 0.
    have -> : k = - 2%:R. rewrite /k. have Q : forall a : F, a * (2%:R^-1 * (0 * 0 + 2%:R * 2%:R) - 2%:R * 2%:R) = a * - 2%:R by ff. by have := Q 1; rewrite !mul1r.
    by rewrite oppr_lt0 ltr0n.
  rewrite (C73_invert_pdmat LG false _).1 ?tr_scalar_mx // => -[_ H]. have O : (1%:M : 'rV[F]_1) != 0 by apply/eqP => /matrixP /(_ 0 0); rewrite !mxE eqxx /= => /eqP; rewrite oner_eq0.
  have := H _ O. rewrite form1 mul1r mulr1 => H0. have := lt_trans K H0. by rewrite ltxx.
- rewrite X2_weight !big_ord_recl big_ord0 /= !X2_row /= -!raddfB /= !tr_scalar_mx !sm1 addr0 -raddfD /= scale_scalar_mx. apply: posdef1. rewrite subrr mulr0 addr0 sub0r mulrNN mulr_gt0 // ?mulr_gt0 ?invr_gt0 ?ltr0n //.
Qed.
(** norm_suff_stats is meant to whiten the centred first-order statistic: its squared norm should be the Mahalanobis form of f - N mu.
    The triangular factor it multiplies by is the wrong one of the two: with this precision the norm is 5 and the form is 4. Asking for the
    second-order statistic always raises NameError, and so does loading the parameters of a Normal. *)
Theorem C94_norm_refuted : is_log ln ->
  (exists n (g : normal F n) N u f, mk_normal ln c (n_mu g) (n_L g) = ok g /\ posdef (n_L g) /\ unstack n u = (f, drop n u) /\
     exists v, norm_stats ln g N u false = ok (N, v) /\ dot v v = 5%:R /\ form (n_L g) (f - N *: n_mu g) (f - N *: n_mu g) = 4%:R) /\
  (forall n (g : normal F n) N u, posdef (n_L g) -> norm_stats ln g N u true = err name_error) /\
  (forall n (mu : 'rV[F]_n) (L : 'M[F]_n), load_params (mu, L) = err name_error).
Proof.
move=> LG. have [CH [D _]] := C73_chol_witness F. split; [|split=> //].
- have EG := mk_normal_ok (0 : 'rV[F]_2) LG D. set g0 := MkN _ _ _ _ in EG. set f : 'rV[F]_2 := delta_mx 0 0.
  exists 2%N, g0, 1, (stack f [::]), f. split=> //. split=> //. split; first by rewrite unstackK /stack cats0 drop_oversize // size_map size_enum_ord.
  have [_ /(_ D) [p [E [_ [_ [_ [_ CH2]]]]]]] := C73_invert_pdmat LG false D.1. rewrite CH in CH2. have PC : p_chol p = R2 F by case: CH2.
  exists (row 0 (R2 F)). split; [|split].
  + rewrite /norm_stats unstackK -[n_L g0]/(S2 F) E /= scaler0 subr0 trmxK PC. by rewrite /f -rowE.
  + rewrite /dot mxE !big_ord_recl big_ord0 !mxE /= addr0 mulr1 -natrM -[X in _ + X]/(1%:R) -natrD. by [].
  + rewrite /= scaler0 subr0 /f /form -rowE mxE !big_ord_recl big_ord0 !mxE /= mulr1 mulr0 !addr0. by [].
- move=> n g N u D0. rewrite /norm_stats. have [_ /(_ D0) [p [E _]]] := C73_invert_pdmat LG false D0.1. by rewrite E.
Qed.
End P.
Print Assumptions C94_density. Print Assumptions C94_parameters. Print Assumptions C94_stats. Print Assumptions C94_elbo. Print Assumptions C94_ml.
Print Assumptions C94_fixed_mean_refuted. Print Assumptions C94_norm_refuted.

(** ** Witness: two samples, whose covariance is positive definite, over any real closed field, and the real logarithm (real_log_ok) *)
Example C94_witness (F : rcfType) : (forall i, 0 <= wt (@None 'rV[F]_2) i) /\ 0 < weight (@None 'rV[F]_2) /\ posdef (wcov (X2 F) None) /\ wmean (X2 F) None = 1%:M.
Proof. split; first by move=> i; exact: ler01. split; first by rewrite X2_weight ltr0n. rewrite X2_cov. split; [apply: posdef1; exact: ltr01|exact: X2_mean]. Qed.
