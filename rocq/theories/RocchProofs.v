(** The vertices of the ROC convex hull. *)
From Coq Require Import QArith Lqa.
From Verif Require Import Metrics MetricsSpec SortFacts PavProofs PavProps RocProofs RocProps MatProofs.
Open Scope list_scope.
Open Scope nat_scope.

Lemma rocch_nth P NN nt nn : forall ws left miss fa i, (miss == qsum (firstn left P))%Q -> (fa == qz (Z.of_nat NN) - qz (Z.of_nat left) - qsum (skipn left P))%Q -> i <= len ws ->
  exists m f, nth_error (rocch_loop P NN nt nn left miss fa ws) i = Some (m, f) /\ let k := left + list_sum (firstn i ws) in
    (m == qsum (firstn k P) / nt /\ f == (qz (Z.of_nat NN) - qz (Z.of_nat k) - qsum (skipn k P)) / nn)%Q.
Proof.
  induction ws as [|w ws IH]; intros left miss fa i M F L.
  - destruct i; [|cbn in L; lia]. cbn [rocch_loop nth_error]. eexists _, _. split; [reflexivity|]. cbn. rewrite Nat.add_0_r. rewrite M, F. split; reflexivity.
  - destruct i as [|i]; cbn [rocch_loop nth_error].
    + eexists _, _. split; [reflexivity|]. cbn. rewrite Nat.add_0_r. rewrite M, F. split; reflexivity.
    + destruct (IH (left + w) (fold_right Qplus 0%Q (firstn (left + w) P)) (qz (Z.of_nat NN) - qz (Z.of_nat (left + w)) - fold_right Qplus 0%Q (skipn (left + w) P))%Q i ltac:(reflexivity) ltac:(reflexivity) ltac:(cbn in L; lia)) as (m & f & A & B).
      exists m, f. split; [exact A|]. cbv zeta in *. rewrite firstn_cons. cbn [list_sum fold_right]. fold (list_sum (firstn i ws)). rewrite Nat.add_assoc. exact B.
Qed.
Lemma rocch_len P NN nt nn : forall ws left miss fa, len (rocch_loop P NN nt nn left miss fa ws) = len ws + 1.
Proof. induction ws as [|w ws IH]; intros; cbn [rocch_loop len]; [reflexivity|]. rewrite IH. lia. Qed.

Lemma list_sum_lens (bs : list (list Q)) i : list_sum (firstn i (map (@List.length Q) bs)) = len (concat (firstn i bs)).
Proof. revert i. induction bs as [|b bs IH]; intros [|i]; try reflexivity. cbn [map]. rewrite !firstn_cons. cbn [concat list_sum fold_right]. rewrite app_length. fold (list_sum (firstn i (map (@List.length Q) bs))). rewrite IH. reflexivity. Qed.

Lemma firstn_concat (bs : list (list Q)) i : firstn (len (concat (firstn i bs))) (concat bs) = concat (firstn i bs).
Proof. rewrite <- (firstn_skipn i bs) at 2. rewrite concat_app, firstn_app, firstn_all, Nat.sub_diag. cbn [firstn]. apply app_nil_r. Qed.
Lemma firstn_concat_in (bs : list (list Q)) i b t : nth_error bs i = Some b -> t <= len b -> firstn (len (concat (firstn i bs)) + t) (concat bs) = concat (firstn i bs) ++ firstn t b.
Proof.
  intros B L. assert (E : concat bs = concat (firstn i bs) ++ b ++ concat (skipn (i + 1) bs)).
  { rewrite <- (firstn_skipn i bs) at 1. rewrite concat_app. f_equal. clear L. revert i B. induction bs as [|x bs IH]; intros [|i] B; try discriminate B; [injection B as ->; reflexivity|]. cbn [Nat.add skipn]. apply IH. exact B. }
  rewrite E, firstn_app_2, firstn_app. replace (t - len b) with 0 by lia. cbn [firstn]. rewrite app_nil_r. reflexivity.
Qed.
Lemma kpos_S (bs : list (list Q)) i b : nth_error bs i = Some b -> len (concat (firstn (S i) bs)) = len (concat (firstn i bs)) + len b.
Proof. revert i. induction bs as [|x bs IH]; intros [|i] B; try discriminate B; [injection B as ->; cbn; rewrite app_nil_r; lia|]. rewrite !firstn_cons. cbn [concat]. rewrite !app_length, <- Nat.add_assoc. f_equal. apply IH. exact B. Qed.
Lemma kpos_find (bs : list (list Q)) k : bs <> [] -> k <= len (concat bs) -> exists i b t, nth_error bs i = Some b /\ t <= len b /\ k = len (concat (firstn i bs)) + t.
Proof.
  revert k. induction bs as [|x bs IH]; intros k N L; [congruence|]. destruct (le_lt_dec k (len x)) as [Q|Q]; [exists 0, x, k; repeat split; exact Q|].
  cbn [concat] in L. rewrite app_length in L. destruct bs as [|y bs]; [cbn in L; lia|]. destruct (IH (k - len x) ltac:(discriminate) ltac:(lia)) as (i & b & t & A & B & C). exists (S i), b, t. split; [exact A|]. split; [exact B|]. rewrite firstn_cons. cbn [concat]. rewrite app_length. lia.
Qed.

Section Rocch.
Context {S : Type} `{Ord S}.
Variables tar non : list S.
Hypothesis NT : tar <> [].
Hypothesis NN : non <> [].
Let ii := argsort (tar ++ non).
Let N := len tar + len non.
Let P := map (fun i => if is_tar tar i then 1%Q else 0%Q) ii.

Lemma P_len : len P = N. Proof. unfold P, N, ii. rewrite map_length. apply ii_len. Qed.
Lemma P_sum k : (qsum (firstn k P) == qn (cnt tar non k))%Q.
Proof.
  unfold P, cnt. fold ii. rewrite firstn_map. induction (firstn k ii) as [|x l IH]; [reflexivity|]. cbn [map filter]. change (qsum (?a :: ?b)) with (a + qsum b)%Q. destruct (is_tar tar x); cbn [len].
  - change (qsum (1%Q :: map (fun i : nat => if is_tar tar i then 1%Q else 0%Q) l)) with (1 + qsum (map (fun i : nat => if is_tar tar i then 1%Q else 0%Q) l))%Q. rewrite qn_S, IH. reflexivity.
  - change (qsum (0%Q :: map (fun i : nat => if is_tar tar i then 1%Q else 0%Q) l)) with (0 + qsum (map (fun i : nat => if is_tar tar i then 1%Q else 0%Q) l))%Q. rewrite IH. ring.
Qed.

Definition kpos (bs : list (list Q)) (i : nat) : nat := len (concat (firstn i bs)).
Definition U : Q := / qn (len tar).
Definition V : Q := / qn (len non).
Lemma U_pos : (0 < U)%Q. Proof. apply Qinv_lt_0_compat, qn_len_pos. exact NT. Qed.
Lemma V_pos : (0 < V)%Q. Proof. apply Qinv_lt_0_compat, qn_len_pos. exact NN. Qed.
Lemma point_m_eq k : (point_m tar non k == qn (cnt tar non k) * U)%Q.
Proof. reflexivity. Qed.
Lemma point_f_eq k : k <= N -> (point_f tar non k == (qn (len non) - (qn k - qn (cnt tar non k))) * V)%Q.
Proof.
  intros L. unfold point_f, ratio, Qdiv, V. fold (qn (len non)). pose proof (cnt_le tar non k). pose proof (cnt_fa_le tar non k L).
  replace (inject_Z (Z.of_nat (len non - (k - cnt tar non k)))) with (qn (len non - (k - cnt tar non k))) by reflexivity.
  assert (E : (qn (len non) == qn (len non - (k - cnt tar non k)) + (qn k - qn (cnt tar non k)))%Q).
  { assert (E1 : (qn (len non) == qn (len non - (k - cnt tar non k)) + qn (k - cnt tar non k))%Q) by (rewrite <- qn_add; replace (len non - (k - cnt tar non k) + (k - cnt tar non k)) with (len non) by lia; reflexivity).
    assert (E2 : (qn k == qn (k - cnt tar non k) + qn (cnt tar non k))%Q) by (rewrite <- qn_add; replace (k - cnt tar non k + cnt tar non k) with k by lia; reflexivity). rewrite E1, E2. ring. }
  set (a := qn (len non - (k - cnt tar non k))) in *. set (b := (qn k - qn (cnt tar non k))%Q) in *. set (c := (/ qn (len non))%Q). clearbody c. rewrite E. ring.
Qed.

(** the hull: blocks of the sorted labels and the vertices at their ends *)
Definition hull (vs : list (Q * Q)) (bs : list (list Q)) (ms : list Q) : Prop :=
  concat bs = P /\ bs <> [] /\ Forall2 blk ms bs /\ incr ms /\ len vs = len bs + 1 /\
  forall i, i <= len bs -> exists m f, nth_error vs i = Some (m, f) /\ (m == point_m tar non (kpos bs i))%Q /\ (f == point_f tar non (kpos bs i))%Q.

Lemma kpos_le bs i : concat bs = P -> kpos bs i <= N.
Proof. intros C. rewrite <- P_len, <- C. unfold kpos. rewrite <- (firstn_skipn i bs) at 2. rewrite concat_app, app_length. lia. Qed.

Lemma rocch_hull : exists vs bs ms, compute_rocch tar non = Ok vs /\ hull vs bs ms.
Proof.
  unfold compute_rocch. cbv zeta. rewrite gather_labels. cbn [bind]. fold ii. fold P.
  assert (NP : P <> []). { intros E. pose proof P_len as L. rewrite E in L. unfold N in L. destruct tar; [congruence|cbn in L; lia]. }
  destruct (pavx_blocks P NP) as (bs & ms & E & C & F & I). rewrite E. cbn [bind].
  exists (rocch_loop P (len tar + len non) (qz (Z.of_nat (len tar))) (qz (Z.of_nat (len non))) 0 0%Q (qz (Z.of_nat (len non))) (map (@List.length Q) bs)), bs, ms. split. { destruct (len tar) eqn:A; [destruct tar; [congruence|discriminate]|]. destruct (len non) eqn:B; [destruct non; [congruence|discriminate]|]. reflexivity. }
  split; [exact C|]. split; [intros ->; apply NP; rewrite <- C; reflexivity|]. split; [exact F|]. split; [exact I|]. split; [rewrite rocch_len, map_length; reflexivity|].
  intros i Li. assert (KP : forall k, (qsum (skipn k P) == qn (len tar) - qn (cnt tar non k))%Q).
  { intros k. pose proof (qsum_app (firstn k P) (skipn k P)) as X. rewrite firstn_skipn in X. rewrite P_sum in X. pose proof (P_sum N) as Y. rewrite firstn_all2 in Y by (rewrite P_len; lia). unfold N in Y. rewrite cnt_all in Y. rewrite Y in X. lra. }
  destruct (rocch_nth P (len tar + len non) (qz (Z.of_nat (len tar))) (qz (Z.of_nat (len non))) (map (@List.length Q) bs) 0 0%Q (qz (Z.of_nat (len non))) i) as (m & f & A & B & D).
  - reflexivity.
  - rewrite KP. rewrite cnt_0. unfold qz. fold (qn (len non)). fold (qn (len tar + len non)). rewrite qn_add. change (inject_Z (Z.of_nat 0)) with 0%Q. change (qn 0) with 0%Q. ring.
  - rewrite map_length. exact Li.
  - exists m, f. split; [exact A|]. cbn [Nat.add] in B, D. rewrite list_sum_lens in B, D. fold (kpos bs i) in B, D. pose proof (kpos_le bs i C) as KL. split.
    + rewrite B, P_sum. reflexivity.
    + rewrite D, KP, (point_f_eq _ KL). unfold qz. fold (qn (len tar + len non)). fold (qn (kpos bs i)). fold (qn (len non)). rewrite qn_add. unfold V, Qdiv. ring.
Qed.

(** counts inside a block *)
Lemma hull_in vs bs ms i b mu t : hull vs bs ms -> nth_error bs i = Some b -> nth_error ms i = Some mu -> t <= len b ->
  (qn (cnt tar non (kpos bs i)) + mu * qn t <= qn (cnt tar non (kpos bs i + t)))%Q.
Proof.
  intros (C & _ & F & _) B M T. assert (K : blk mu b). { clear - F B M. revert i B M. induction F as [|x y l l' R _ IH]; intros [|i] B M; try discriminate; [injection B as ->; injection M as ->; exact R|apply (IH i); assumption]. }
  rewrite <- !P_sum, <- C. unfold kpos. rewrite (firstn_concat_in bs i b t B T), firstn_concat, qsum_app. destruct K as (_ & _ & K). specialize (K (firstn t b) (skipn t b) ltac:(symmetry; apply firstn_skipn)). rewrite firstn_length_le in K by exact T. lra.
Qed.
Lemma hull_end vs bs ms i b mu : hull vs bs ms -> nth_error bs i = Some b -> nth_error ms i = Some mu ->
  (qn (cnt tar non (kpos bs (Datatypes.S i))) == qn (cnt tar non (kpos bs i)) + mu * qn (len b))%Q /\ kpos bs (Datatypes.S i) = kpos bs i + len b /\ 0 < len b /\ (0 <= mu <= 1)%Q.
Proof.
  intros (C & _ & F & _) B M. assert (K : blk mu b). { clear - F B M. revert i B M. induction F as [|x y l l' R _ IH]; intros [|i] B M; try discriminate; [injection B as ->; injection M as ->; exact R|apply (IH i); assumption]. }
  assert (E : kpos bs (Datatypes.S i) = kpos bs i + len b) by (apply kpos_S; exact B).
  assert (Q1 : (qn (cnt tar non (kpos bs (Datatypes.S i))) == qn (cnt tar non (kpos bs i)) + mu * qn (len b))%Q).
  { rewrite E. rewrite <- !P_sum, <- C. unfold kpos. rewrite (firstn_concat_in bs i b (len b) B (le_n _)), firstn_concat, qsum_app, firstn_all. destruct K as (_ & K & _). rewrite K. reflexivity. }
  assert (LB : 0 < len b) by (destruct K as (K & _); destruct b; [congruence|cbn; lia]). split; [exact Q1|]. split; [exact E|]. split; [exact LB|].
  pose proof (qn_pos _ LB) as QB. pose proof (cnt_mono tar non (kpos bs i) (len b)) as X1. pose proof (cnt_step tar non (kpos bs i) (len b)) as X2. rewrite <- E in X1, X2.
  assert (Y1 : (qn (cnt tar non (kpos bs i)) <= qn (cnt tar non (kpos bs (Datatypes.S i))))%Q) by (unfold qn; rewrite <- Zle_Qle; lia).
  assert (Y2 : (qn (cnt tar non (kpos bs (Datatypes.S i))) <= qn (cnt tar non (kpos bs i)) + qn (len b))%Q) by (rewrite <- qn_add; unfold qn; rewrite <- Zle_Qle; lia).
  rewrite Q1 in Y1, Y2. split; [apply (Qmult_le_r _ _ (qn (len b)) QB); lra|apply (Qmult_le_r _ _ (qn (len b)) QB); lra].
Qed.

(** the end of a block is a cut between different scores *)
Lemma hull_real vs bs ms i : hull vs bs ms -> i <= len bs -> real_cut tar non (kpos bs i).
Proof.
  intros Hh Li. pose proof Hh as (C & NB & F & I & _). destruct i as [|i]; [left; reflexivity|].
  destruct (nth_error bs i) as [b|] eqn:B; [|apply nth_error_None in B; lia]. assert (LM : len ms = len bs) by (eapply F2_len; exact F).
  destruct (nth_error ms i) as [mu|] eqn:M; [|apply nth_error_None in M; lia].
  destruct (hull_end vs bs ms i b mu Hh B M) as (E1 & E2 & LB & _).
  destruct (nth_error bs (Datatypes.S i)) as [b'|] eqn:B'.
  2:{ apply nth_error_None in B'. right. left. unfold kpos. rewrite firstn_all2 by lia. rewrite C. exact P_len. }
  destruct (nth_error ms (Datatypes.S i)) as [mu'|] eqn:M'; [|apply nth_error_None in M'; assert (Datatypes.S i < len bs) by (apply nth_error_Some; congruence); lia].
  destruct (hull_end vs bs ms _ b' mu' Hh B' M') as (E1' & E2' & LB' & _).
  right. right. set (k := kpos bs (Datatypes.S i)) in *. assert (KN : kpos bs (Datatypes.S (Datatypes.S i)) <= N) by (apply kpos_le; exact C).
  assert (K1 : k - 1 < N) by lia. assert (K2 : k < N) by lia.
  destruct (cnt_S tar non (k - 1) K1) as (x & X1 & X2). destruct (cnt_S tar non k K2) as (y & Y1 & Y2). replace (k - 1 + 1) with k in X2 by lia.
  assert (MM : (mu < mu')%Q) by (apply (ss_nth Qlt ms i (Datatypes.S i) mu mu' I); [lia|exact M|exact M']).
  pose proof (hull_in vs bs ms i b mu (len b - 1) Hh B M ltac:(lia)) as H1. replace (kpos bs i + (len b - 1)) with (k - 1) in H1 by lia.
  pose proof (hull_in vs bs ms _ b' mu' 1 Hh B' M' ltac:(lia)) as H2. fold k in H2.
  assert (LQ : (qn (len b) == qn (len b - 1) + 1)%Q) by (replace (len b) with (len b - 1 + 1) at 1 by lia; apply qn_add).
  assert (XL : is_tar tar x = false /\ is_tar tar y = true).
  { assert (T1 : (qn (if is_tar tar x then 1 else 0) <= mu)%Q) by (rewrite X2, qn_add in E1; rewrite LQ in E1; lra).
    assert (T2 : (mu' <= qn (if is_tar tar y then 1 else 0))%Q) by (rewrite Y2, qn_add in H2; change (qn 1) with 1%Q in H2; lra).
    assert (U1 : (0 <= qn (if is_tar tar x then 1 else 0))%Q) by apply qn_nonneg. assert (U2 : (qn (if is_tar tar y then 1 else 0) <= 1)%Q) by (destruct (is_tar tar y); discriminate).
    destruct (is_tar tar x); [change (qn 1) with 1%Q in T1; exfalso; lra|]. destruct (is_tar tar y); [split; reflexivity|change (qn 0) with 0%Q in *; exfalso; lra]. }
  destruct XL as (XF & YT). unfold is_tar in XF, YT. apply Nat.ltb_ge in XF. apply Nat.ltb_lt in YT.
  assert (SS := argsort_sorted (tar ++ non)). fold ii in SS, X1, Y1. pose proof (ss_nth _ ii (k - 1) k x y SS ltac:(lia) X1 Y1) as (a & c & A1 & A2 & [A3|[_ A3]]); [|lia].
  exists x, y, a, c. split; [exact X1|]. split; [exact Y1|]. split; [lia|]. split; [exact A1|]. split; [exact A2|exact A3].
Qed.
End Rocch.
