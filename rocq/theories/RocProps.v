(** C37 (first part): the ROC points are the operating points. *)
From Coq Require Import QArith Lqa.
From Verif Require Import Metrics MetricsSpec SortFacts PavProofs RocProofs MatProofs.
Open Scope list_scope.
Open Scope nat_scope.

Definition sumZ (l : list Z) : Z := fold_right Z.add 0%Z l.
Lemma cumsum_nth l : forall a k, k < len l -> nth_error (cumsumZ a l) k = Some (a + sumZ (firstn (k + 1) l))%Z.
Proof.
  induction l as [|x l IH]; intros a k L; [cbn in L; lia|]. cbn [cumsumZ]. destruct k as [|k]; [cbn; f_equal; lia|]. cbn [nth_error Nat.add]. cbn [len] in L. rewrite IH by lia. rewrite firstn_cons. cbn [sumZ fold_right]. f_equal. unfold sumZ. lia.
Qed.
Lemma cumsum_len l : forall a, len (cumsumZ a l) = len l.
Proof. induction l as [|x l IH]; intros a; cbn; [reflexivity|]. rewrite IH. reflexivity. Qed.

Section RocP.
Context {S : Type} `{Ord S}.
Variables tar non : list S.
Hypothesis NT : tar <> [].
Hypothesis NN : non <> [].
Let ii := argsort (tar ++ non).
Let N := len tar + len non.

Lemma lab_sum k : sumZ (firstn k (map (fun i => if is_tar tar i then 1 else 0)%Z ii)) = Z.of_nat (cnt tar non k).
Proof.
  unfold cnt. fold ii. rewrite firstn_map. induction (firstn k ii) as [|x l IH]; [reflexivity|]. cbn [map sumZ fold_right filter]. unfold sumZ in IH. rewrite IH. destruct (is_tar tar x); cbn [len]; lia.
Qed.

Definition point_m (k : nat) : Q := ratio (cnt tar non k) (len tar).
Definition point_f (k : nat) : Q := ratio (len non - (k - cnt tar non k)) (len non).

Lemma len_pos_nat {A} (l : list A) : l <> [] -> 0 < len l.
Proof. destruct l; [congruence|cbn; lia]. Qed.

Lemma roc_points : exists pm pf, compute_roc tar non = Ok (pm, pf) /\ len pm = N + 1 /\ len pf = N + 1 /\
  forall k, k <= N -> exists m f, nth_error pm k = Some m /\ nth_error pf k = Some f /\ (m == point_m k)%Q /\ (f == point_f k)%Q.
Proof.
  pose proof (len_pos_nat tar NT) as LT. pose proof (len_pos_nat non NN) as LN. unfold compute_roc. cbv zeta. unfold assert.
  rewrite (proj2 (Z.ltb_lt 0 (Z.of_nat (len tar)))) by lia. rewrite (proj2 (Z.ltb_lt 0 (Z.of_nat (len non)))) by lia. cbn [bind].
  rewrite gather_labels. cbn [bind]. fold ii. set (lab := map _ ii). assert (LL : len lab = N) by (unfold lab, ii, N; rewrite map_length; apply ii_len).
  eexists _, _. split; [reflexivity|]. set (st := cumsumZ 0 lab). assert (LS : len st = N) by (unfold st; rewrite cumsum_len; exact LL).
  assert (ZL : forall A B C (f : A -> B -> C) a b, len a = len b -> len (zip_with f a b) = len a). { clear. intros A B C f a. induction a as [|x a IH]; intros [|y b] E; try discriminate E; [reflexivity|]. cbn. rewrite IH by (cbn in E; lia). reflexivity. }
  assert (LA : len (arange 0 (Z.of_nat (len tar) + Z.of_nat (len non))) = N) by (rewrite arange_length; unfold N; lia).
  split; [cbn [len]; rewrite map_length, LS; lia|]. split; [cbn [len]; rewrite map_length, ZL by lia; lia|].
  intros [|k] K; cbn [nth_error].
  - exists 0%Q, 1%Q. split; [reflexivity|]. split; [reflexivity|]. unfold point_m, point_f. rewrite cnt_0. split; [reflexivity|]. rewrite !Nat.sub_0_r. unfold ratio. field. change 0%Q with (inject_Z 0). rewrite inject_Z_injective. lia.
  - assert (E : nth_error st k = Some (Z.of_nat (cnt tar non (k + 1)))). { unfold st. rewrite cumsum_nth by lia. f_equal. unfold lab. rewrite lab_sum. lia. }
    assert (EA : nth_error (arange 0 (Z.of_nat (len tar) + Z.of_nat (len non))) k = Some (Z.of_nat k)).
    { rewrite arange_nat by lia. rewrite nth_error_map. replace (Z.to_nat 0) with 0 by lia. replace (Z.to_nat (Z.of_nat (len tar) + Z.of_nat (len non) - 0)) with N by lia.
      rewrite (nth_error_nth' _ 0) by (rewrite seq_length; lia). rewrite seq_nth by lia. reflexivity. }
    rewrite !nth_error_map, E. cbn [option_map].
    assert (ZN : forall (f : Z -> Z -> Z) a b i x y, nth_error a i = Some x -> nth_error b i = Some y -> nth_error (zip_with f a b) i = Some (f x y)).
    { clear. intros f a. induction a as [|u a IH]; intros [|v b] [|i] x y A B; try discriminate; cbn in *; [injection A as ->; injection B as ->; reflexivity|apply IH; assumption]. }
    rewrite (ZN _ _ _ _ _ _ EA E). cbn [option_map]. replace (Datatypes.S k) with (k + 1) by lia. eexists _, _. split; [reflexivity|]. split; [reflexivity|]. unfold point_m, point_f, ratio. split; [reflexivity|].
    unfold qz. pose proof (cnt_le tar non (k + 1)). pose proof (cnt_fa_le tar non (k + 1) ltac:(unfold N in K; lia)). replace (Z.of_nat (len non - (k + 1 - cnt tar non (k + 1)))) with (Z.of_nat (len non) - (Z.of_nat k + 1 - Z.of_nat (cnt tar non (k + 1))))%Z by lia. reflexivity.
Qed.

Lemma th_point th : exists k, k <= N /\ (point_m k == miss_rate th tar)%Q /\ (point_f k == fa_rate th non)%Q.
Proof.
  destruct (threshold_cut tar non th) as (k & K & A & B). exists k. split; [exact K|]. unfold point_m, miss_rate. rewrite A. split; [reflexivity|]. unfold point_f, fa_rate.
  assert (C : len (filter (fun s => negb (rejects th s)) non) + len (filter (rejects th) non) = len non). { clear. induction non as [|x l IH]; [reflexivity|]. cbn. destruct (rejects th x); cbn; lia. }
  replace (len non - (k - cnt tar non k)) with (len (filter (fun s => negb (rejects th s)) non)) by lia. reflexivity.
Qed.

Lemma point_th k : real_cut tar non k -> exists th, (point_m k == miss_rate th tar)%Q /\ (point_f k == fa_rate th non)%Q.
Proof.
  intros R. destruct (cut_threshold tar non k R) as (th & A & B). exists th. unfold point_m, miss_rate. rewrite A. split; [reflexivity|]. unfold point_f, fa_rate.
  assert (C : len (filter (fun s => negb (rejects th s)) non) + len (filter (rejects th) non) = len non). { clear. induction non as [|x l IH]; [reflexivity|]. cbn. destruct (rejects th x); cbn; lia. }
  replace (len non - (k - cnt tar non k)) with (len (filter (fun s => negb (rejects th s)) non)) by lia. reflexivity.
Qed.

Lemma distinct_real k : NoDup (tar ++ non) -> k <= N -> real_cut tar non k.
Proof.
  intros D K. destruct (Nat.eq_dec k 0) as [->|K0]; [left; reflexivity|]. destruct (Nat.eq_dec k N) as [->|K1]; [right; left; reflexivity|]. right. right.
  pose proof (ii_len tar non) as L. fold ii in L |- *. destruct (nth_error ii (k - 1)) as [i|] eqn:I; [|apply nth_error_None in I; lia]. destruct (nth_error ii k) as [j|] eqn:J; [|apply nth_error_None in J; lia].
  assert (B : before (tar ++ non) i j). { assert (SS := argsort_sorted (tar ++ non)). fold ii in SS. clear - SS I J K0. revert k K0 I J. induction SS as [|x l S1 IH S2]; intros k K0 I J; [destruct k; discriminate J|].
    destruct k as [|k]; [lia|]. destruct k as [|k]; [cbn in I; injection I as ->; rewrite Forall_forall in S2; apply S2; apply (nth_error_In l 0); exact J|].
    apply (IH (Datatypes.S k)); [lia| |exact J]. cbn [Nat.sub nth_error] in I |- *. rewrite Nat.sub_0_r. exact I. }
  destruct B as (a & b & A & B & [X|[X Y]]); exists i, j, a, b; (split; [reflexivity|]; split; [reflexivity|]; split; [lia|]; split; [exact A|]; split; [exact B|]); [exact X|].
  exfalso. subst b. assert (i = j). { apply (proj1 (NoDup_nth_error (tar ++ non)) D); [apply nth_error_Some; congruence|]. rewrite A, B. reflexivity. } lia.
Qed.

Lemma ratio_le a b n : a <= b -> (ratio a n <= ratio b n)%Q.
Proof. intros L. unfold ratio, Qdiv. apply Qmult_le_compat_r; [rewrite <- Zle_Qle; lia|]. apply Qinv_le_0_compat. change 0%Q with (inject_Z 0). rewrite <- Zle_Qle. lia. Qed.

Lemma point_m_mono k d : (point_m k <= point_m (k + d))%Q.
Proof. apply ratio_le, cnt_mono. Qed.
Lemma cnt_step k d : cnt tar non (k + d) <= cnt tar non k + d.
Proof.
  unfold cnt. fold ii. assert (X : exists r, firstn (k + d) ii = firstn k ii ++ r /\ len r <= d). { exists (firstn d (skipn k ii)). split; [|rewrite firstn_length; lia]. clear. revert k. induction ii as [|x l IH]; intros k; [rewrite skipn_nil, !firstn_nil; reflexivity|]. destruct k; [reflexivity|]. cbn [Nat.add skipn]. rewrite !firstn_cons, (IH k). reflexivity. }
  destruct X as (r & -> & L). rewrite filter_app, app_length. assert (len (filter (is_tar tar) r) <= len r). { clear. induction r as [|x r IH]; cbn [filter len]; [lia|]. destruct (is_tar tar x); cbn [len]; lia. } lia.
Qed.
Lemma point_f_mono k d : (point_f (k + d) <= point_f k)%Q.
Proof. apply ratio_le. pose proof (cnt_step k d). pose proof (cnt_le tar non k). lia. Qed.
Lemma ratio_one n : 0 < n -> (ratio n n == 1)%Q.
Proof. intros L. unfold ratio. field. change 0%Q with (inject_Z 0). rewrite inject_Z_injective. lia. Qed.
Lemma ratio_zero n : (ratio 0 n == 0)%Q. Proof. reflexivity. Qed.
Lemma point_0 : (point_m 0 == 0)%Q /\ (point_f 0 == 1)%Q.
Proof. unfold point_m, point_f. rewrite cnt_0, !Nat.sub_0_r. split; [reflexivity|]. apply ratio_one, len_pos_nat. exact NN. Qed.
Lemma point_N : (point_m N == 1)%Q /\ (point_f N == 0)%Q.
Proof.
  unfold point_m, point_f, N. rewrite cnt_all. split; [apply ratio_one, len_pos_nat; exact NT|]. replace (len non - (len tar + len non - len tar)) with 0 by lia. reflexivity.
Qed.
End RocP.

(** The points of compute_roc: the first is (0,1), the last (1,0), misses never decrease and false alarms
    never increase; every threshold gives one of the points; and when no score occurs twice every point is
    given by a threshold. *)
Theorem C37_roc : forall (S : Type) (O : Ord S) (tar non : list S), tar <> [] -> non <> [] ->
  exists p_miss p_fa, compute_roc tar non = Ok (p_miss, p_fa) /\
    len p_miss = len tar + len non + 1 /\ len p_fa = len tar + len non + 1 /\
    (exists m f, nth_error p_miss 0 = Some m /\ nth_error p_fa 0 = Some f /\ m == 0 /\ f == 1)%Q /\
    (exists m f, nth_error p_miss (len tar + len non) = Some m /\ nth_error p_fa (len tar + len non) = Some f /\ m == 1 /\ f == 0)%Q /\
    (forall i j m f m' f', i <= j -> nth_error p_miss i = Some m -> nth_error p_fa i = Some f -> nth_error p_miss j = Some m' -> nth_error p_fa j = Some f' -> (m <= m' /\ f' <= f)%Q) /\
    (forall th, exists k m f, nth_error p_miss k = Some m /\ nth_error p_fa k = Some f /\ (m == miss_rate th tar)%Q /\ (f == fa_rate th non)%Q) /\
    (NoDup (tar ++ non) -> forall k m f, nth_error p_miss k = Some m -> nth_error p_fa k = Some f -> exists th, (m == miss_rate th tar)%Q /\ (f == fa_rate th non)%Q).
Proof.
  intros S O tar non NT NN. destruct (roc_points tar non NT NN) as (pm & pf & E & L1 & L2 & P). exists pm, pf. split; [exact E|]. split; [exact L1|]. split; [exact L2|].
  assert (PI : forall k m f, nth_error pm k = Some m -> nth_error pf k = Some f -> k <= len tar + len non /\ (m == point_m tar non k)%Q /\ (f == point_f tar non k)%Q).
  { intros k m f A B. assert (K : k <= len tar + len non) by (assert (k < len pm) by (apply nth_error_Some; congruence); lia). split; [exact K|]. destruct (P k K) as (m' & f' & A' & B' & C & D). rewrite A in A'. rewrite B in B'. injection A' as ->. injection B' as ->. split; assumption. }
  split; [|split; [|split; [|split]]].
  - destruct (P 0 ltac:(lia)) as (m & f & A & B & C & D). exists m, f. destruct (point_0 tar non NN) as (X & Y). split; [exact A|]. split; [exact B|]. split; [rewrite C; exact X|rewrite D; exact Y].
  - destruct (P (len tar + len non) ltac:(lia)) as (m & f & A & B & C & D). exists m, f. destruct (point_N tar non NT) as (X & Y). split; [exact A|]. split; [exact B|]. split; [rewrite C; exact X|rewrite D; exact Y].
  - intros i j m f m' f' L A B A' B'. destruct (PI i m f A B) as (_ & A1 & A2). destruct (PI j m' f' A' B') as (_ & A3 & A4). rewrite A1, A2, A3, A4. replace j with (i + (j - i)) by lia. split; [apply point_m_mono|apply point_f_mono].
  - intros th. destruct (th_point tar non th) as (k & K & A & B). destruct (P k K) as (m & f & X & Y & Z & W). exists k, m, f. split; [exact X|]. split; [exact Y|]. rewrite Z, W. split; assumption.
  - intros D k m f A B. destruct (PI k m f A B) as (K & X & Y). destruct (point_th tar non k (distinct_real tar non k D K)) as (th & Z & W). exists th. rewrite X, Y. split; assumption.
Qed.
Print Assumptions C37_roc.

Example C37_roc_witness : exists pm pf, compute_roc [3; 1; 4]%Z [2; 0]%Z = Ok (pm, pf) /\ Forall2 Qeq pm [0; 0; 1 # 3; 1 # 3; 2 # 3; 1]%Q /\ Forall2 Qeq pf [1; 1 # 2; 1 # 2; 0; 0; 0]%Q.
Proof. eexists _, _. split; [vm_compute; reflexivity|]. split; repeat constructor. Qed.

(** with equal target and non-target scores a point appears that no threshold attains *)
Theorem C37_roc_ties_refuted : exists (tar non : list Z) pm pf m f k, compute_roc tar non = Ok (pm, pf) /\ nth_error pm k = Some m /\ nth_error pf k = Some f /\
  forall th, ~ ((m == miss_rate th tar)%Q /\ (f == fa_rate th non)%Q).
Proof.
  exists [0]%Z, [0]%Z. eexists _, _, _, _, 1. split; [vm_compute; reflexivity|]. split; [reflexivity|]. split; [reflexivity|]. intros th (A & B). unfold miss_rate, fa_rate in *. cbn [filter] in *. destruct (rejects th 0%Z); cbn in *; discriminate.
Qed.
Print Assumptions C37_roc_ties_refuted.
