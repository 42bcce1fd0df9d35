(** Properties of opt_loglr and compute_cllr. *)
From Coq Require Import QArith Reals Qreals Lra Lqa Sorting.
From Verif Require Import BaseFacts OptLlr MetricsSpec SortFacts PavProofs PavProps RocProofs RocProps MatProofs.
Open Scope list_scope.
Open Scope nat_scope.

Definition xle (x y : xreal) : Prop := match x, y with NInf, _ => True | _, PInf => True | Fin a, Fin b => (a <= b)%R | _, _ => False end.
Definition xlt (x y : xreal) : Prop := match x, y with NInf, NInf => False | NInf, _ => True | Fin _, PInf => True | Fin a, Fin b => (a < b)%R | _, _ => False end.

(** ** block means of 0/1 labels *)
Definition unit_q (x : Q) : Prop := (0 <= x <= 1)%Q.
Lemma qsum_range l : Forall unit_q l -> (0 <= qsum l <= qn (len l))%Q.
Proof.
  induction 1 as [|x l (X1 & X2) _ IH]; [split; apply Qle_refl|]. change (qsum (x :: l)) with (x + qsum l)%Q. cbn [len]. rewrite qn_S. split; Lqa.lra.
Qed.
Lemma blk_range m b : Forall unit_q b -> blk m b -> (0 <= m <= 1)%Q.
Proof.
  intros F (N & M & _). pose proof (qn_len_pos b N) as P. destruct (qsum_range b F) as (A & B). rewrite <- M in A, B. split; [apply (Qmult_le_r _ _ _ P)|apply (Qmult_le_r _ _ _ P)]; Lqa.lra.
Qed.
Lemma means_range ms bs : Forall2 blk ms bs -> Forall unit_q (concat bs) -> Forall unit_q ms.
Proof.
  induction 1 as [|m b ms bs R _ IH]; intros F; constructor; cbn [concat] in F; apply Forall_app in F; destruct F as (F1 & F2); [exact (blk_range m b F1 R)|apply IH; exact F2].
Qed.
Lemma means_pos ms bs l : Forall2 blk ms bs -> incr ms -> concat bs = 1%Q :: l -> Forall unit_q l -> Forall (fun m => 0 < m)%Q ms.
Proof.
  intros F I E U. destruct F as [|m b ms bs R F]; [constructor|]. inversion I as [|? ? I1 I2]; subst.
  assert (M : (0 < m)%Q). { destruct R as (N & M & _). pose proof (qn_len_pos b N) as P. destruct b as [|x b]; [congruence|]. cbn [concat app] in E. injection E as -> E. assert (Ub : Forall unit_q b) by (rewrite <- E in U; apply Forall_app in U; apply U).
    destruct (qsum_range b Ub) as (Q1 & _). change (qsum (1%Q :: b)) with (1 + qsum b)%Q in M. assert (Z : (0 < m * qn (len (1%Q :: b)))%Q) by Lqa.lra. apply (Qmult_lt_r _ _ _ P). Lqa.lra. }
  constructor; [exact M|]. eapply Forall_impl; [|exact I2]. intros y Y. cbn in Y. Lqa.lra.
Qed.
Lemma means_lt1 ms bs l : Forall2 blk ms bs -> incr ms -> concat bs = l ++ [0%Q] -> Forall unit_q l -> Forall (fun m => m < 1)%Q ms.
Proof.
  intros F I E U. destruct (@exists_last _ ms) as (ms' & m & ->). { intros ->. inversion F; subst. destruct l; discriminate E. }
  destruct (F2_snoc_inv _ _ _ _ F) as (bs' & b & -> & F' & R). apply ss_snoc_inv in I. destruct I as (I1 & I2).
  assert (M : (m < 1)%Q). { destruct R as (N & M & _). pose proof (qn_len_pos b N) as P. destruct (@exists_last _ b N) as (b' & x & ->). rewrite concat_app in E. cbn [concat] in E. rewrite app_nil_r, app_assoc in E. apply app_inj_tail in E. destruct E as (E & ->).
    assert (Ub : Forall unit_q b') by (rewrite <- E in U; apply Forall_app in U; apply U). destruct (qsum_range b' Ub) as (_ & Q1). rewrite qsum_app in M. change (qsum [0%Q]) with (0 + 0)%Q in M. rewrite app_length, qn_add in M, P. change (qn (len [0%Q])) with 1%Q in M, P.
    apply (Qmult_lt_r _ _ _ P). Lqa.lra. }
  apply Forall_app. split; [|constructor; [exact M|constructor]]. eapply Forall_impl; [|exact I2]. intros y Y. cbn in Y. Lqa.lra.
Qed.

(** ** log-odds *)
Lemma xlog_mono p q : (0 <= p)%Q -> (q <= 1)%Q -> (p <= q)%Q -> xle (xlog_odds p) (xlog_odds q).
Proof.
  intros P Q L. unfold xlog_odds. destruct (Qeq_bool p 0) eqn:P0; [exact I|]. assert (P0' : (~ p == 0)%Q) by (intros X; apply Qeq_bool_iff in X; congruence).
  destruct (Qeq_bool p 1) eqn:P1. { apply Qeq_bool_iff in P1. destruct (Qeq_bool q 0) eqn:Q0; [apply Qeq_bool_iff in Q0; Lqa.lra|]. destruct (Qeq_bool q 1) eqn:Q1; [exact I|]. assert (~ q == 1)%Q by (intros X; apply Qeq_bool_iff in X; congruence). assert (q == 1)%Q by Lqa.lra. contradiction. }
  assert (P1' : (~ p == 1)%Q) by (intros X; apply Qeq_bool_iff in X; congruence). destruct (Qeq_bool q 0) eqn:Q0; [apply Qeq_bool_iff in Q0; Lqa.lra|]. destruct (Qeq_bool q 1) eqn:Q1; [exact I|]. assert (Q1' : (~ q == 1)%Q) by (intros X; apply Qeq_bool_iff in X; congruence).
  cbn [xle]. assert (A : (0 < p)%Q) by Lqa.lra. assert (B : (q < 1)%Q) by (apply Qnot_le_lt; intros X; apply Q1'; Lqa.lra). apply Qlt_Rlt in A, B. apply Qle_Rle in L. rewrite RMicromega.Q2R_0 in A. rewrite RMicromega.Q2R_1 in B.
  assert (E1 : (ln (Q2R p) <= ln (Q2R q))%R) by (destruct (Rle_lt_or_eq_dec _ _ L) as [X| ->]; [apply Rlt_le, ln_increasing; assumption|apply Rle_refl]).
  assert (E2 : (ln (1 - Q2R q) <= ln (1 - Q2R p))%R) by (destruct (Rle_lt_or_eq_dec _ _ L) as [X| ->]; [apply Rlt_le, ln_increasing; Lra.lra|apply Rle_refl]). Lra.lra.
Qed.
Lemma xlog_fin p : (0 < p)%Q -> (p < 1)%Q -> exists r, xlog_odds p = Fin r.
Proof.
  intros A B. unfold xlog_odds. destruct (Qeq_bool p 0) eqn:P0; [apply Qeq_bool_iff in P0; Lqa.lra|]. destruct (Qeq_bool p 1) eqn:P1; [apply Qeq_bool_iff in P1; Lqa.lra|]. eexists. reflexivity.
Qed.

Section Opt.
Context {S : Type} `{Ord S}.
Variables (tar non : list S).
Hypothesis NT : tar <> [].
Hypothesis NN : non <> [].
Let ii := argsort (tar ++ non).
Let N := len tar + len non.
Let P := map (fun i => if is_tar tar i then 1%Q else 0%Q) ii.

Lemma P_unit : Forall unit_q P.
Proof. apply Forall_forall. intros x X. apply in_map_iff in X. destruct X as (i & <- & _). destruct (is_tar tar i); split; discriminate. Qed.
Lemma P_length : len P = N. Proof. unfold P. rewrite map_length. apply ii_len. Qed.

(** the fitted posteriors in the order of the scores *)
Lemma posteriors (laplace : bool) : exists g w h, pavx (if laplace then ([1; 0] ++ P ++ [1; 0])%Q else P) = Ok (g, w, h) /\
  let p := if laplace then firstn (len g - 4) (skipn 2 g) else g in
  len p = N /\ (forall i j a b, i <= j -> nth_error p i = Some a -> nth_error p j = Some b -> (a <= b)%Q) /\
  (forall i a, nth_error p i = Some a -> unit_q a /\ (laplace = true -> 0 < a /\ a < 1)%Q).
Proof.
  set (y := if laplace then ([1; 0] ++ P ++ [1; 0])%Q else P). assert (NY : y <> []). { unfold y. destruct laplace; [discriminate|]. intros X. pose proof P_length as L. rewrite X in L. unfold N in L. destruct tar; [congruence|cbn in L; lia]. }
  assert (U : Forall unit_q y). { unfold y. destruct laplace; [|exact P_unit]. apply Forall_app. split; [repeat constructor; discriminate|]. apply Forall_app. split; [exact P_unit|repeat constructor; discriminate]. }
  destruct (pavx_blocks y NY) as (bs & ms & E & C & F & I). exists (steps ms bs), (map (@List.length Q) bs), ms. split; [exact E|]. assert (LM : len ms = len bs) by (eapply F2_len; exact F). assert (LS : len (steps ms bs) = len y) by (rewrite steps_len by exact LM; rewrite C; reflexivity).
  pose proof (steps_nd ms bs LM I) as ND.
  assert (R : forall k a, nth_error (steps ms bs) k = Some a -> unit_q a /\ (laplace = true -> 0 < a /\ a < 1)%Q).
  { intros k a A. destruct (steps_nth ms bs k a LM A) as (q & Q & _). apply nth_error_In in Q. split; [rewrite <- C in U; exact (proj1 (Forall_forall _ _) (means_range ms bs F U) a Q)|]. intros ->. split.
    - refine (proj1 (Forall_forall _ _) (means_pos ms bs _ F I C _) a Q). unfold y in U. inversion U; assumption.
    - unfold y in C. refine (proj1 (Forall_forall _ _) (means_lt1 ms bs ([1; 0] ++ P ++ [1])%Q F I _ _) a Q); [rewrite C, <- !app_assoc; reflexivity|]. apply Forall_app. split; [repeat constructor; discriminate|]. apply Forall_app. split; [exact P_unit|repeat constructor; discriminate]. }
  cbv zeta. unfold y in LS. pose proof P_length as PL. destruct laplace.
  - assert (LY : len (steps ms bs) = N + 4) by (rewrite LS, !app_length; cbn [len]; lia).
    assert (SH : forall i a, nth_error (firstn (len (steps ms bs) - 4) (skipn 2 (steps ms bs))) i = Some a -> nth_error (steps ms bs) (2 + i) = Some a).
    { intros i a A. rewrite nth_error_firstn in A. destruct (i <? _); [|discriminate]. rewrite nth_error_skipn in A. exact A. }
    split; [rewrite firstn_length, skipn_length; lia|]. split; [|intros i a A; apply (R (2 + i)), SH, A]. intros i j a b L A B. apply (ND (2 + i) (2 + j)); [lia|apply SH; exact A|apply SH; exact B].
  - split; [lia|]. split; [intros i j a b L A B; apply (ND i j); assumption|]. intros i a A. apply (R i). exact A.
Qed.

Lemma inr_len_pos : (0 < INR N)%R.
Proof. apply lt_0_INR. unfold N. destruct tar; [congruence|cbn; lia]. Qed.

Lemma opt_ok laplace : exists tl nl, opt_loglr laplace tar non = Ok (tl, nl) /\ len tl = len tar /\ len nl = len non /\
  (forall i j s t x y, nth_error (tar ++ non) i = Some s -> nth_error (tar ++ non) j = Some t -> nth_error (tl ++ nl) i = Some x -> nth_error (tl ++ nl) j = Some y ->
    ltb s t = true -> xle x y /\ (forall a b, x = Fin a -> y = Fin b -> (a < b)%R)) /\
  (laplace = true -> forall x, In x (tl ++ nl) -> exists r, x = Fin r).
Proof.
  unfold opt_loglr. cbv zeta. rewrite gather_labels. cbn [bind]. fold ii. fold P. destruct (posteriors laplace) as (g & w & h & E & Pp). rewrite E. cbn [bind]. cbv zeta in Pp. set (p := if laplace then firstn (len g - 4) (skipn 2 g) else g) in *. clearbody p. destruct Pp as (Lp & Mp & Rp).
  destruct (Nat.eqb (len non) 0) eqn:Z; [apply Nat.eqb_eq in Z; destruct non; [congruence|discriminate]|].
  set (f := fun (k : nat) (q : Q) => xplus (xplus (xlog_odds q) (- ln (INR (len tar) / INR (len non)))) (/ 1000000 * INR k / INR (len tar + len non))). set (llr := zip_with f (seq 0 (len tar + len non)) p).
  assert (LL : len llr = N) by (unfold llr; rewrite zip_with_length; rewrite seq_length; [reflexivity|symmetry; exact Lp]).
  assert (LI : len ii = N) by apply ii_len.
  destruct (set_items_ok ii llr llr) as (out & E2 & LO & RO & _).
  { apply argsort_nodup. } { apply Forall_forall. intros k K. unfold ii in K. apply argsort_in in K. rewrite app_length in K. unfold N in LL. lia. } { congruence. }
  rewrite E2. cbn [bind]. exists (firstn (len tar) out), (skipn (len tar) out). split; [reflexivity|]. rewrite firstn_length, skipn_length, LO, LL. split; [unfold N; lia|]. split; [unfold N; lia|]. rewrite firstn_skipn.
  assert (AT : forall i, i < N -> exists k q, nth_error ii k = Some i /\ nth_error p k = Some q /\ nth_error out i = Some (f k q)).
  { intros i L. destruct (In_nth_error ii i) as (k & K); [apply argsort_in; rewrite app_length; exact L|]. assert (LK : k < N) by (rewrite <- LI; apply nth_error_Some; congruence).
    destruct (nth_error p k) as [q|] eqn:Q; [|apply nth_error_None in Q; lia]. exists k, q. split; [exact K|]. split; [exact Q|]. rewrite (RO k i K). unfold llr. rewrite zip_with_nth, Q. rewrite (nth_error_nth' _ 0) by (rewrite seq_length; exact LK). rewrite seq_nth by exact LK. reflexivity. }
  split.
  - intros i j s t x y Si Sj Xi Xj LT. assert (Li : i < N) by (unfold N; rewrite <- app_length; apply nth_error_Some; congruence). assert (Lj : j < N) by (unfold N; rewrite <- app_length; apply nth_error_Some; congruence).
    destruct (AT i Li) as (k & q & K1 & K2 & K3). destruct (AT j Lj) as (k' & q' & K1' & K2' & K3'). rewrite Xi in K3. injection K3 as ->. rewrite Xj in K3'. injection K3' as ->.
    assert (KK : k < k').
    { destruct (lt_eq_lt_dec k k') as [[L|L]|L]; [exact L| |].
      - subst k'. rewrite K1 in K1'. injection K1' as <-. rewrite Si in Sj. injection Sj as <-. rewrite ltb_irrefl in LT. discriminate.
      - pose proof (ss_nth _ ii k' k j i (argsort_sorted (tar ++ non)) L K1' K1) as (a & b & A & B & [C|[C _]]); rewrite Si in B; injection B as <-; rewrite Sj in A; injection A as <-.
        + rewrite (leb_ltb s t (ltb_leb _ _ LT)) in C. discriminate.
        + subst t. rewrite ltb_irrefl in LT. discriminate. }
    pose proof (Mp k k' q q' ltac:(lia) K2 K2') as ML. destruct (proj1 (Rp k q K2)) as (U1 & U2). destruct (proj1 (Rp k' q' K2')) as (U3 & U4). pose proof (xlog_mono q q' U1 U4 ML) as XM.
    assert (KR : (/ 1000000 * INR k / INR (len tar + len non) < / 1000000 * INR k' / INR (len tar + len non))%R).
    { pose proof inr_len_pos as PN. fold N. unfold Rdiv. apply Rmult_lt_compat_r; [apply Rinv_0_lt_compat; exact PN|]. apply Rmult_lt_compat_l; [Lra.lra|]. apply lt_INR. exact KK. }
    unfold f. destruct (xlog_odds q) as [|a|], (xlog_odds q') as [|b|]; cbn [xplus xle] in *; try (split; [exact I|intros ? ? A B; discriminate]); try contradiction.
    split; [Lra.lra|]. intros a' b' A B. injection A as <-. injection B as <-. Lra.lra.
  - intros LA x X. destruct (In_nth_error _ _ X) as (i & I). assert (Li : i < N) by (rewrite <- LL, <- LO; apply nth_error_Some; congruence). destruct (AT i Li) as (k & q & K1 & K2 & K3). rewrite I in K3. injection K3 as ->. destruct (proj2 (Rp k q K2) LA) as (A & B). destruct (xlog_fin q A B) as (r & R). unfold f. rewrite R. eexists. reflexivity.
Qed.
End Opt.

(** opt_loglr (default method): all log-likelihood ratios are finite, there is one for each score, and a larger
    score never gets a smaller or equal log-likelihood ratio. *)
Theorem C55_opt_loglr : forall (S : Type) (O : Ord S) (tar non : list S), tar <> [] -> non <> [] ->
  exists tar_llr non_llr : list R, opt_loglr true tar non = Ok (map Fin tar_llr, map Fin non_llr) /\ List.length tar_llr = List.length tar /\ List.length non_llr = List.length non /\
    forall i j s t a b, nth_error (tar ++ non) i = Some s -> nth_error (tar ++ non) j = Some t -> nth_error (tar_llr ++ non_llr) i = Some a -> nth_error (tar_llr ++ non_llr) j = Some b ->
      ltb s t = true -> (a < b)%R.
Proof.
  intros S O tar non NT NN. destruct (opt_ok tar non NT NN true) as (tl & nl & E & L1 & L2 & M & F). specialize (F eq_refl).
  assert (G : forall l, (forall x, In x l -> exists r, x = Fin r) -> exists rs, l = map Fin rs). { induction l as [|x l IH]; intros Q; [exists []; reflexivity|]. destruct (Q x (or_introl eq_refl)) as (r & ->). destruct IH as (rs & ->); [intros y Y; apply Q; right; exact Y|]. exists (r :: rs). reflexivity. }
  destruct (G tl) as (tr & ->); [intros x X; apply F, in_or_app; left; exact X|]. destruct (G nl) as (nr & ->); [intros x X; apply F, in_or_app; right; exact X|]. rewrite map_length in L1, L2.
  exists tr, nr. split; [exact E|]. split; [exact L1|]. split; [exact L2|]. intros i j s t a b Si Sj A B LT. destruct (M i j s t (Fin a) (Fin b) Si Sj) as (_ & X); [rewrite <- map_app, nth_error_map, A; reflexivity|rewrite <- map_app, nth_error_map, B; reflexivity|exact LT|]. apply X; reflexivity.
Qed.

(** method 'raw': the log-likelihood ratios may be infinite, but their order still never contradicts that of the scores. *)
Theorem C55_opt_loglr_raw : forall (S : Type) (O : Ord S) (tar non : list S), tar <> [] -> non <> [] ->
  exists tar_llr non_llr, opt_loglr false tar non = Ok (tar_llr, non_llr) /\ List.length tar_llr = List.length tar /\ List.length non_llr = List.length non /\
    forall i j s t x y, nth_error (tar ++ non) i = Some s -> nth_error (tar ++ non) j = Some t -> nth_error (tar_llr ++ non_llr) i = Some x -> nth_error (tar_llr ++ non_llr) j = Some y ->
      ltb s t = true -> xle x y /\ (forall a b, x = Fin a -> y = Fin b -> (a < b)%R).
Proof.
  intros S O tar non NT NN. destruct (opt_ok tar non NT NN false) as (tl & nl & E & L1 & L2 & M & _). exists tl, nl. split; [exact E|]. split; [exact L1|]. split; [exact L2|]. exact M.
Qed.

(** ** Cllr *)
Lemma neglog_pos x : (0 < neglogsigmoid x)%R.
Proof. unfold neglogsigmoid. destruct (Rlt_dec x (-100)); [Lra.lra|]. rewrite <- ln_1. apply ln_increasing; [Lra.lra|]. pose proof (exp_pos (- x)). Lra.lra. Qed.

(** What Cllr should be (Brummer and du Preez): the non-targets are penalised for large scores. *)
Definition cllr_spec (tar non : list R) : R :=
  ((rmean (map (fun x => ln (1 + exp (- x))) tar) / ln 2 + rmean (map (fun x => ln (1 + exp x)) non) / ln 2) / 2)%R.

(** compute_cllr penalises the non-targets for small scores instead: lowering a non-target score, which
    makes the detector better, makes the result worse, for every list of targets. *)
Theorem C56_cllr_refuted : forall tar x y, (-100 <= x)%R -> (x < y)%R -> (compute_cllr tar [y] < compute_cllr tar [x])%R /\ (cllr_spec tar [x] < cllr_spec tar [y])%R.
Proof.
  intros tar x y Lx L. assert (L2 : (0 < ln 2)%R) by (rewrite <- ln_1; apply ln_increasing; Lra.lra). assert (EX : (exp x < exp y)%R) by (apply exp_increasing; exact L). assert (EY : (exp (- y) < exp (- x))%R) by (apply exp_increasing; Lra.lra). pose proof (exp_pos x). pose proof (exp_pos (- y)).
  assert (A : (ln (1 + exp (- y)) < ln (1 + exp (- x)))%R) by (apply ln_increasing; Lra.lra). assert (B : (ln (1 + exp x) < ln (1 + exp y))%R) by (apply ln_increasing; Lra.lra).
  assert (NX : neglogsigmoid x = ln (1 + exp (- x))) by (unfold neglogsigmoid; destruct (Rlt_dec x (-100)); [Lra.lra|reflexivity]). assert (NY : neglogsigmoid y = ln (1 + exp (- y))) by (unfold neglogsigmoid; destruct (Rlt_dec y (-100)); [Lra.lra|reflexivity]).
  unfold compute_cllr, cllr_spec. set (T := (rmean (map neglogsigmoid tar) / ln 2)%R). set (T' := (rmean (map (fun x0 : R => ln (1 + exp (- x0))) tar) / ln 2)%R). unfold rmean, rsum. cbn [map fold_right len]. change (INR 1) with 1%R. rewrite NX, NY.
  assert (I2 : (0 < / ln 2)%R) by (apply Rinv_0_lt_compat; exact L2). unfold Rdiv. rewrite Rinv_1, !Rmult_1_r, !Rplus_0_r. split.
  - pose proof (Rmult_lt_compat_r _ _ _ I2 A). Lra.lra.
  - pose proof (Rmult_lt_compat_r _ _ _ I2 B). Lra.lra.
Qed.

(** The result is positive for non-empty lists, and agrees with the definition when the non-target scores are negated. *)
Theorem C56_cllr : forall tar non, (forall s, In s (tar ++ non) -> (-100 <= s)%R) -> compute_cllr tar non = cllr_spec tar (map Ropp non) /\ (tar <> [] -> non <> [] -> (0 < compute_cllr tar non)%R).
Proof.
  intros tar non B. assert (G : forall l, (forall s, In s l -> (-100 <= s)%R) -> map neglogsigmoid l = map (fun x => ln (1 + exp (- x))) l).
  { intros l Q. apply map_ext_in. intros s Is. unfold neglogsigmoid. destruct (Rlt_dec s (-100)) as [L|L]; [specialize (Q s Is); Lra.lra|reflexivity]. }
  split.
  - unfold compute_cllr, cllr_spec. rewrite !G by (intros s Is; apply B, in_or_app; auto). rewrite map_map. reflexivity.
  - intros NT NN. assert (P : forall l, l <> [] -> (0 < rmean (map neglogsigmoid l))%R).
    { intros l N. unfold rmean. apply Rdiv_lt_0_compat; [|apply lt_0_INR; destruct l; [congruence|cbn; lia]]. destruct l as [|x l]; [congruence|]. cbn [map rsum fold_right]. assert (Z : (0 <= rsum (map neglogsigmoid l))%R). { clear. induction l as [|y l IH]; cbn [map rsum fold_right]; [apply Rle_refl|]. pose proof (neglog_pos y). unfold rsum in IH. Lra.lra. } pose proof (neglog_pos x). unfold rsum in Z. Lra.lra. }
    assert (L2 : (0 < ln 2)%R) by (rewrite <- ln_1; apply ln_increasing; Lra.lra). unfold compute_cllr. pose proof (Rdiv_lt_0_compat _ _ (P tar NT) L2). pose proof (Rdiv_lt_0_compat _ _ (P non NN) L2). Lra.lra.
Qed.
Example C55_witness : [3; 1]%Z <> [] /\ [2; 0]%Z <> [] /\ nth_error ([3; 1] ++ [2; 0])%Z 1 = Some 1%Z /\ ltb 1%Z 2%Z = true.
Proof. repeat split; discriminate. Qed.
Print Assumptions C55_opt_loglr. Print Assumptions C55_opt_loglr_raw. Print Assumptions C56_cllr_refuted. Print Assumptions C56_cllr.
