(** Properties of compute_min_dcf, compute_act_dcf, fast_eval_dcf_eer and effective_prior. *)
From Coq Require Import QArith Lqa Sorting.
From Verif Require Import BaseFacts Metrics MetricsSpec SortFacts PavProofs PavProps RocProofs RocProps RocchProofs EerProofs HullProps MatProofs.
Open Scope list_scope.
Open Scope nat_scope.

(** ** minimum DCF *)
Lemma argmin_from_ok l : forall best k i full, (nth_error full k = Some best) -> (forall j, nth_error full (i + j) = nth_error l j) -> len full = i + len l -> (forall j x, j < i -> nth_error full j = Some x -> (best <= x)%Q) ->
  exists b, nth_error full (argmin_from best k i l) = Some b /\ forall j x, nth_error full j = Some x -> (b <= x)%Q.
Proof.
  induction l as [|y l IH]; intros best k i full K T L B; cbn [argmin_from].
  - exists best. split; [exact K|]. intros j x X. apply (B j x); [|exact X]. assert (j < len full) by (apply nth_error_Some; congruence). cbn in L. lia.
  - assert (Y : nth_error full i = Some y) by (specialize (T 0); rewrite Nat.add_0_r in T; exact T).
    assert (T' : forall j, nth_error full (S i + j) = nth_error l j) by (intros j; specialize (T (S j)); rewrite Nat.add_succ_r in T; exact T).
    destruct (Qle_bool best y) eqn:E.
    + apply Qle_bool_iff in E. apply (IH best k (S i) full K T'); [cbn in L; lia|]. intros j x J X. destruct (Nat.eq_dec j i) as [->|N]; [rewrite Y in X; injection X as <-; exact E|]. apply (B j x); [lia|exact X].
    + assert (E' : (y < best)%Q) by (apply Qnot_le_lt; intros Q; apply Qle_bool_iff in Q; congruence). apply (IH y i (S i) full Y T'); [cbn in L; lia|]. intros j x J X. destruct (Nat.eq_dec j i) as [->|N]; [rewrite Y in X; injection X as <-; apply Qle_refl|]. apply Qle_trans with best; [apply Qlt_le_weak; exact E'|]. apply (B j x); [lia|exact X].
Qed.
Lemma argmin_ok l : l <> [] -> exists i b, argmin l = Ok i /\ nth_error l i = Some b /\ forall j x, nth_error l j = Some x -> (b <= x)%Q.
Proof.
  intros N. destruct l as [|x l]; [congruence|]. unfold argmin. destruct (argmin_from_ok l x 0 1 (x :: l) eq_refl (fun j => eq_refl) ltac:(cbn; lia)) as (b & B1 & B2).
  - intros j y J Y. assert (j = 0) by lia. subst j. injection Y as <-. apply Qle_refl.
  - eexists _, b. split; [reflexivity|]. split; assumption.
Qed.

Lemma dcf_cost p n v : dcf_one p n v = cost p n (fst v) (snd v).
Proof. reflexivity. Qed.

(** cost is monotone in the linear form *)
Lemma cost_le p n m f m' f' : (0 < p)%Q -> (p < 1)%Q -> (p * m + (1 - p) * f <= p * m' + (1 - p) * f')%Q -> (cost p n m f <= cost p n m' f')%Q.
Proof.
  intros P1 P2 L. unfold cost. destruct n; [|exact L]. assert (G : (0 < (if Qle_bool p (1 - p) then p else 1 - p))%Q) by (destruct (Qle_bool p (1 - p)); lra).
  apply Qle_shift_div_l; [exact G|]. unfold Qdiv. rewrite <- Qmult_assoc, (Qmult_comm (/ _)), Qmult_inv_r, Qmult_1_r by lra. exact L.
Qed.
Global Instance cost_proper p n : Proper (Qeq ==> Qeq ==> Qeq) (cost p n).
Proof. intros a b E c d F. unfold cost. destruct n; rewrite E, F; reflexivity. Qed.

Section MinDcf.
Context {S : Type} `{Ord S}.
Variables tar non : list S.
Hypothesis NT : tar <> [].
Hypothesis NN : non <> [].

Lemma hull_cost vs bs ms p n th : hull tar non vs bs ms -> (0 < p)%Q -> (p < 1)%Q -> exists i v, nth_error vs i = Some v /\ (cost p n (fst v) (snd v) <= cost p n (miss_rate th tar) (fa_rate th non))%Q.
Proof.
  intros Hh P1 P2. destruct (th_point tar non th) as (k & K & M & F). destruct (hull_lin tar non NT NN vs bs ms p (1 - p) k Hh ltac:(lra) ltac:(lra) K) as (i & v & V & L).
  exists i, v. split; [exact V|]. rewrite <- M, <- F. apply cost_le; assumption.
Qed.
Lemma hull_vertex vs bs ms i v : hull tar non vs bs ms -> nth_error vs i = Some v -> exists th, (fst v == miss_rate th tar /\ snd v == fa_rate th non)%Q.
Proof.
  intros Hh P. pose proof Hh as (C & NB & F & I & LV & Vx). assert (L : i <= len bs) by (assert (i < len vs) by (apply nth_error_Some; congruence); lia). destruct (Vx i L) as (m' & f' & X1 & X2 & X3). rewrite P in X1. injection X1 as ->. destruct (point_th tar non _ (hull_real tar non vs bs ms i Hh L)) as (th & T1 & T2). exists th. cbn [fst snd]. rewrite X2, X3. split; assumption.
Qed.
End MinDcf.

(** compute_min_dcf returns the smallest cost over all thresholds together with the operating point that has it. *)
Theorem C37_min_dcf : forall (S : Type) (O : Ord S) (tar non : list S) prior normalize, tar <> [] -> non <> [] -> (0 < prior)%Q -> (prior < 1)%Q ->
  exists d m f, compute_min_dcf tar non prior normalize = Ok (d, m, f) /\ (d == cost prior normalize m f)%Q /\
    (exists th, m == miss_rate th tar /\ f == fa_rate th non)%Q /\
    forall th, (d <= cost prior normalize (miss_rate th tar) (fa_rate th non))%Q.
Proof.
  intros S O tar non p n NT NN P1 P2. destruct (rocch_hull tar non NT NN) as (vs & bs & ms & E & Hh). unfold compute_min_dcf. rewrite E. cbn [bind].
  assert (NV : map (dcf_one p n) vs <> []). { pose proof Hh as (_ & _ & _ & _ & LV & _). destruct vs; [cbn in LV; lia|discriminate]. }
  destruct (argmin_ok _ NV) as (i & b & A1 & A2 & A3). rewrite A1. cbn [bind]. unfold rd at 1. rewrite A2. cbn [bind]. rewrite nth_error_map in A2. unfold rd. destruct (nth_error vs i) as [v|] eqn:V; [|discriminate A2]. injection A2 as <-. cbn [bind].
  exists (dcf_one p n v), (fst v), (snd v). split; [reflexivity|]. split; [rewrite dcf_cost; reflexivity|]. split; [exact (hull_vertex tar non vs bs ms i v Hh V)|].
  intros th. destruct (hull_cost tar non NT NN vs bs ms p n th Hh P1 P2) as (j & w & W & L). apply Qle_trans with (cost p n (fst w) (snd w)); [|exact L]. rewrite <- (dcf_cost p n w). apply (A3 j). rewrite nth_error_map, W. reflexivity.
Qed.

(** ** ranks *)
Section Rank.
Context {S : Type} `{Ord S}.
Definition beforeb (key : list S) (j i : nat) : bool :=
  match nth_error key i, nth_error key j with Some a, Some b => ltb a b || (eqb a b && (i <? j)) | _, _ => false end.
Lemma beforeb_iff key i j : beforeb key j i = true <-> before key i j.
Proof.
  unfold beforeb, before. destruct (nth_error key i) as [a|], (nth_error key j) as [b|]; try (split; [discriminate|intros (? & ? & ? & ? & ?); discriminate]).
  rewrite orb_true_iff, andb_true_iff, eqb_eq, Nat.ltb_lt. split; [intros Q; exists a, b; repeat split; exact Q|]. intros (x & y & X & Y & Q). injection X as <-. injection Y as <-. exact Q.
Qed.
Lemma rank_at key j : j < len key -> exists k, nth_error (argsort key) k = Some j /\ k = len (filter (beforeb key j) (seq 0 (len key))).
Proof.
  intros L. destruct (In_nth_error (argsort key) j) as (k & K); [apply argsort_in; exact L|]. exists k. split; [exact K|].
  assert (LK : k < len (argsort key)) by (apply nth_error_Some; congruence). rewrite <- (firstn_length_le (argsort key) (n := k)) at 1 by lia.
  apply nodup_same_len; [apply firstn_nodup, argsort_nodup|apply NoDup_filter, seq_NoDup|]. intros x. rewrite filter_In, in_seq, beforeb_iff.
  pose proof (sorted_prefix (before key) (argsort key) k j (before_irrefl key) (before_trans key) (argsort_sorted key) K x) as SP.
  split.
  - intros X. assert (I : In x (argsort key)) by (eapply firstn_incl; exact X). split; [apply argsort_in in I; lia|]. apply SP; assumption.
  - intros (X & Y). apply SP; [apply argsort_in; lia|exact Y].
Qed.

Lemma filter_seq_count (f : S -> bool) l : forall s, len (filter (fun i => match nth_error l (i - s) with Some a => f a | None => false end) (seq s (len l))) = len (filter f l).
Proof.
  induction l as [|x l IH]; intros s; [reflexivity|]. cbn [len seq filter]. rewrite Nat.sub_diag. cbn [nth_error].
  assert (E : filter (fun i => match nth_error (x :: l) (i - s) with Some a => f a | None => false end) (seq (Datatypes.S s) (len l)) = filter (fun i => match nth_error l (i - Datatypes.S s) with Some a => f a | None => false end) (seq (Datatypes.S s) (len l))).
  { apply filter_ext_in. intros i I. apply in_seq in I. replace (i - s) with (Datatypes.S (i - Datatypes.S s)) by lia. reflexivity. }
  rewrite E. destruct (f x); cbn [len]; rewrite IH; reflexivity.
Qed.
Lemma count_above j n : j < n -> len (filter (fun i => j <? i) (seq 0 n)) = n - 1 - j.
Proof.
  intros L. replace n with (j + 1 + (n - 1 - j)) at 1 by lia. rewrite seq_app, filter_app, app_length.
  assert (A : filter (fun i => j <? i) (seq 0 (j + 1)) = []). { assert (G : forall l, (forall i, In i l -> i <= j) -> filter (fun i => j <? i) l = []) by (clear; induction l as [|x l IH]; intros Q; [reflexivity|]; cbn [filter]; rewrite (proj2 (Nat.ltb_ge j x)) by (apply Q; left; reflexivity); apply IH; intros i I; apply Q; right; exact I). apply G. intros i I. apply in_seq in I. lia. }
  rewrite A. cbn [len Nat.add]. assert (G : forall l, (forall i, In i l -> j < i) -> filter (fun i => j <? i) l = l) by (clear; induction l as [|x l IH]; intros Q; [reflexivity|]; cbn [filter]; rewrite (proj2 (Nat.ltb_lt j x)) by (apply Q; left; reflexivity); f_equal; apply IH; intros i I; apply Q; right; exact I).
  rewrite G by (intros i I; apply in_seq in I; lia). apply seq_length.
Qed.

Definition decreasing (t : list S) : Prop := forall i j a b, i < j -> nth_error t i = Some a -> nth_error t j = Some b -> ltb b a = true.
Lemma rank_counts_ok t scores : decreasing t -> rank_counts t scores = Ok (map (fun x => Z.of_nat (len (filter (fun s => ltb s x) scores))) t).
Proof.
  intros D. unfold rank_counts. cbv zeta. set (joint := t ++ scores). set (ii := argsort joint).
  assert (LJ : len joint = len t + len scores) by apply app_length. assert (LI : len ii = len joint) by apply argsort_len.
  destruct (set_items_ok ii (repeat 0%Z (len joint)) (arange 1 (Z.of_nat (len joint) + 1))) as (r & E & L & R & _).
  - apply argsort_nodup.
  - apply Forall_forall. intros k K. rewrite repeat_length. apply argsort_in. exact K.
  - rewrite arange_length. lia.
  - rewrite E. cbn [bind]. f_equal. apply nth_error_ext. intros j. rewrite zip_with_nth, nth_error_map. rewrite repeat_length in L.
    destruct (nth_error t j) as [x|] eqn:X.
    2:{ rewrite nth_error_firstn. destruct (j <? len t) eqn:Q; [apply Nat.ltb_lt in Q; apply nth_error_None in X; lia|]. reflexivity. }
    assert (LT : j < len t) by (apply nth_error_Some; congruence). cbn [option_map]. rewrite nth_error_firstn, (proj2 (Nat.ltb_lt _ _) LT).
    destruct (rank_at joint j ltac:(lia)) as (k & K1 & K2). rewrite (R k j K1). assert (KL : k < len ii) by (apply nth_error_Some; unfold ii; congruence).
    assert (AR : forall n q, q < n -> nth_error (arange 1 (Z.of_nat n + 1)) q = Some (Z.of_nat q + 1)%Z). { intros n q Q. rewrite arange_nat by lia. rewrite nth_error_map. replace (Z.to_nat (Z.of_nat n + 1 - 1)) with n by lia. rewrite (nth_error_nth' _ 0) by (rewrite seq_length; exact Q). rewrite seq_nth by exact Q. cbn [option_map]. f_equal. lia. }
    rewrite AR by lia. rewrite nth_error_rev by (rewrite arange_length; lia). rewrite arange_length. replace (Z.to_nat (Z.of_nat (len t) + 1 - 1) - 1 - j) with (len t - 1 - j) by lia. rewrite AR by lia. f_equal.
    (* the rank *)
    assert (CK : k = (len t - 1 - j) + len (filter (fun s => ltb s x) scores)); [|lia].
    rewrite K2, LJ, seq_app, filter_app, app_length. cbn [Nat.add].
    assert (XJ : nth_error joint j = Some x) by (unfold joint; rewrite nth_error_app1 by exact LT; exact X). f_equal.
    + rewrite <- (count_above j (len t) LT). f_equal. apply filter_ext_in. intros i I. apply in_seq in I. unfold beforeb. rewrite XJ. unfold joint. rewrite nth_error_app1 by lia.
      destruct (nth_error t i) as [a|] eqn:A; [|apply nth_error_None in A; lia]. destruct (lt_eq_lt_dec i j) as [[Q|Q]|Q].
      * pose proof (D i j a x Q A X) as LX. rewrite (leb_ltb x a) by (apply ltb_leb; exact LX). assert (NE : eqb a x = false) by (destruct (eqb a x) eqn:EQ; [apply eqb_eq in EQ; subst a; rewrite ltb_irrefl in LX; discriminate|reflexivity]). rewrite NE. symmetry. apply Nat.ltb_ge. lia.
      * subst i. rewrite X in A. injection A as <-. rewrite ltb_irrefl, Nat.ltb_irrefl, andb_false_r. reflexivity.
      * rewrite (D j i x a Q X A). symmetry. apply Nat.ltb_lt. exact Q.
    + rewrite <- (filter_seq_count (fun s => ltb s x) scores (len t)). f_equal. apply filter_ext_in. intros i I. apply in_seq in I. unfold beforeb. rewrite XJ. unfold joint. rewrite nth_error_app2 by lia.
      destruct (nth_error scores (i - len t)) as [a|]; [|reflexivity]. rewrite (proj2 (Nat.ltb_ge i j)) by lia. rewrite andb_false_r, orb_false_r. reflexivity.
Qed.
End Rank.

Lemma qsorted_incr l : (forall i j a b, i < j -> nth_error l i = Some a -> nth_error l j = Some b -> (a < b)%Q) -> qsorted l = true.
Proof. intros Q. apply qsorted_ok. intros i a b A B. apply Qlt_le_weak, (Q i (S i)); [lia|exact A|exact B]. Qed.

(** what compute_act_dcf must return for one prior *)
Definition actual_cost {S} `{Ord S} (t : S) (tar non : list S) (prior : Q) (normalize : bool) : Q :=
  cost prior normalize (miss_rate (At t) tar) (fa_rate (At t) non).

(** compute_act_dcf with increasing priors: the misses are the targets below the threshold of the prior, the
    false alarms the non-targets at or above it. [thr] stands for the log-odds map, of which only
    monotonicity matters here (DcfReal.v instantiates it). *)
Theorem C37_act_dcf : forall (S : Type) (O : Ord S) (thr : Q -> S) (tar non : list S) priors normalize, tar <> [] -> non <> [] ->
  (forall i j p q, i < j -> nth_error priors i = Some p -> nth_error priors j = Some q -> (p < q)%Q) ->
  (forall p q, In p priors -> In q priors -> (p < q)%Q -> ltb (thr q) (thr p) = true) ->
  exists act p_miss p_fa, compute_act_dcf thr tar non priors normalize = Ok (act, p_miss, p_fa) /\
    List.length act = List.length priors /\ List.length p_miss = List.length priors /\ List.length p_fa = List.length priors /\
    forall j p, nth_error priors j = Some p -> exists d m f, nth_error act j = Some d /\ nth_error p_miss j = Some m /\ nth_error p_fa j = Some f /\
      (m == miss_rate (At (thr p)) tar /\ f == fa_rate (At (thr p)) non /\ d == actual_cost (thr p) tar non p normalize)%Q.
Proof.
  intros S O thr tar non priors n NT NN Inc Dec. unfold compute_act_dcf, assert. rewrite (qsorted_incr priors Inc). cbn [bind].
  assert (D : decreasing (map thr priors)).
  { intros i j a b L A B. rewrite nth_error_map in A, B. destruct (nth_error priors i) as [p|] eqn:P; [|discriminate]. destruct (nth_error priors j) as [q|] eqn:Q; [|discriminate]. injection A as <-. injection B as <-. apply Dec; [eapply nth_error_In; exact P|eapply nth_error_In; exact Q|]. apply (Inc i j); assumption. }
  rewrite !rank_counts_ok by exact D. cbn [bind]. rewrite !map_map. eexists _, _, _. split; [reflexivity|].
  match goal with |- len (zip_with ?f priors (combine ?a ?b)) = _ /\ _ => set (pm := a); set (pf := b) end.
  assert (LM : len pm = len priors) by apply map_length. assert (LF : len pf = len priors) by apply map_length.
  split; [rewrite zip_with_length; [reflexivity|rewrite combine_length; lia]|]. split; [exact LM|]. split; [exact LF|].
  intros j p P. set (m := (qz (Z.of_nat (len (filter (fun s => ltb s (thr p)) tar))) / qz (Z.of_nat (len tar)))%Q). set (f := (qz (Z.of_nat (len non) - Z.of_nat (len (filter (fun s => ltb s (thr p)) non))) / qz (Z.of_nat (len non)))%Q).
  assert (PM : nth_error pm j = Some m) by (unfold pm; rewrite nth_error_map, P; reflexivity). assert (PF : nth_error pf j = Some f) by (unfold pf; rewrite nth_error_map, P; reflexivity).
  exists (dcf_one p n (m, f)), m, f.
  assert (CJ : nth_error (combine pm pf) j = Some (m, f)). { clearbody pm pf m f. clear - PM PF. revert pf PF. revert j PM. induction pm as [|x l IH]; intros j PM pf PF; [destruct j; discriminate|]. destruct pf as [|y l']; [destruct j; discriminate|]. destruct j; [injection PM as ->; injection PF as ->; reflexivity|]. apply IH; assumption. }
  split; [rewrite zip_with_nth, P, CJ; reflexivity|]. split; [exact PM|]. split; [exact PF|].
  assert (EM : (m == miss_rate (At (thr p)) tar)%Q) by reflexivity.
  assert (EF : (f == fa_rate (At (thr p)) non)%Q).
  { unfold f, fa_rate, ratio. cbn [rejects]. assert (C : len (filter (fun s => negb (ltb s (thr p))) non) + len (filter (fun s => ltb s (thr p)) non) = len non) by (clear; induction non as [|x l IH]; [reflexivity|]; cbn [filter]; destruct (ltb x (thr p)); cbn [negb len]; lia).
    replace (Z.of_nat (len non) - Z.of_nat (len (filter (fun s => ltb s (thr p)) non)))%Z with (Z.of_nat (len (filter (fun s => negb (ltb s (thr p))) non))) by lia. reflexivity. }
  split; [exact EM|]. split; [exact EF|]. rewrite dcf_cost. cbn [fst snd]. unfold actual_cost. rewrite EM, EF. reflexivity.
Qed.

(** With a repeated prior the check on the order of the priors passes and the counts are wrong: one prior
    gets a negative miss rate, the other too many misses. *)
Theorem C37_act_dcf_repeated_refuted : exists (tar non priors : list Z) act pm pf m m', tar <> [] /\ non <> [] /\
  compute_act_dcf (fun _ => 0%Z) tar non (map inject_Z priors) false = Ok (act, pm, pf) /\ nth_error pm 0 = Some m /\ nth_error pm 1 = Some m' /\
  (m < 0)%Q /\ (miss_rate (At 0%Z) tar < m')%Q.
Proof. exists [1]%Z, [1]%Z, [5; 5]%Z. eexists _, _, _, _, _. split; [discriminate|]. split; [discriminate|]. split; [vm_compute; reflexivity|]. split; [reflexivity|]. split; [reflexivity|]. split; reflexivity. Qed.

Lemma fold_qmin l : forall x, (exists y, In y (x :: l) /\ fold_left qmin l x = y) /\ forall y, In y (x :: l) -> (fold_left qmin l x <= y)%Q.
Proof.
  induction l as [|z l IH]; intros x; cbn [fold_left]; [split; [exists x; split; [left; reflexivity|reflexivity]|intros y [->|[]]; apply Qle_refl]|].
  assert (M : (qmin x z = x \/ qmin x z = z) /\ (qmin x z <= x /\ qmin x z <= z)%Q). { unfold qmin. destruct (Qle_bool x z) eqn:E; [apply Qle_bool_iff in E; split; [left; reflexivity|split; [apply Qle_refl|exact E]]|]. split; [right; reflexivity|]. split; [|apply Qle_refl]. destruct (Qlt_le_dec x z) as [W|W]; [|exact W]. apply Qlt_le_weak, Qle_bool_iff in W. congruence. }
  destruct M as (M1 & M2 & M3). destruct (IH (qmin x z)) as ((y & Y1 & Y2) & Y3). split.
  - exists y. split; [|exact Y2]. destruct Y1 as [<-|Y1]; [destruct M1 as [->| ->]; [left; reflexivity|right; left; reflexivity]|right; right; exact Y1].
  - intros w W. assert (L : (fold_left qmin l (qmin x z) <= qmin x z)%Q) by (apply Y3; left; reflexivity). destruct W as [<-|[<-|W]]; [lra|lra|]. apply Y3. right. exact W.
Qed.

(** fast_eval_dcf_eer gives the values of the separate functions. *)
Theorem C37_fast_eval : forall (S : Type) (O : Ord S) (thr : Q -> S) (tar non : list S) prior normalize, tar <> [] -> non <> [] ->
  exists min_dcf act_dcf eer prbep, fast_eval thr tar non prior normalize = Ok (min_dcf, act_dcf, eer, prbep) /\
    (exists d m f, compute_min_dcf tar non prior normalize = Ok (d, m, f) /\ d == min_dcf)%Q /\
    (exists pm pf, compute_act_dcf thr tar non [prior] normalize = Ok ([act_dcf], pm, pf)) /\
    compute_eer tar non = Ok eer /\ compute_prbep tar non = Ok prbep.
Proof.
  intros S O thr tar non p n NT NN. destruct (C38_eer S O tar non NT NN) as (vs & e & E & E1 & _). destruct (C38_prbep S O tar non NT NN) as (vs' & e' & E' & E2 & _).
  assert (NV : vs <> []) by (intros ->; destruct (C38_rocch S O tar non NT NN) as (vs2 & X & L & _); rewrite E in X; injection X as <-; cbn in L; lia).
  destruct (C37_act_dcf S O thr tar non [p] n NT NN) as (act & pm & pf & A & LA & _).
  { intros i j a b L X Y. destruct j as [|[|j]]; try discriminate Y; lia. }
  { intros a b [<-|[]] [<-|[]] L. lra. }
  destruct act as [|a [|? ?]]; try discriminate LA.
  destruct vs as [|v vs]; [congruence|]. unfold fast_eval. rewrite E. cbn [bind]. unfold compute_eer in E1 |- *. unfold compute_prbep in E2 |- *. rewrite E in E1, E2 |- *. cbn [bind] in E1, E2 |- *. rewrite E1, E2. cbn [bind map]. rewrite A. cbn [bind rd nth_error].
  eexists _, _, _, _. split; [reflexivity|]. split; [|split; [exists pm, pf; reflexivity|split; reflexivity]].
  unfold compute_min_dcf. rewrite E. cbn [bind]. destruct (argmin_ok (map (dcf_one p n) (v :: vs)) ltac:(discriminate)) as (i & b & B1 & B2 & B3). rewrite B1. cbn [bind]. unfold rd at 1. rewrite B2. cbn [bind]. pose proof B2 as B2'. rewrite nth_error_map in B2. unfold rd. destruct (nth_error (v :: vs) i) as [w|]; [|discriminate B2]. cbn [bind]. eexists _, _, _. split; [reflexivity|].
  destruct (fold_qmin (map (dcf_one p n) vs) (dcf_one p n v)) as ((y & Y1 & Y2) & Y3). apply Qle_antisym.
  - destruct (In_nth_error _ _ Y1) as (k & K). rewrite Y2. apply (B3 k). exact K.
  - apply Y3. change (dcf_one p n v :: map (dcf_one p n) vs) with (map (dcf_one p n) (v :: vs)). eapply nth_error_In. exact B2'.
Qed.

(** effective_prior is the prior for which the unit-cost DCF is the cost with c_miss and c_fa, up to a positive factor. *)
Theorem C37_effective_prior : forall p c_miss c_fa, (0 < p)%Q -> (p < 1)%Q -> (0 < c_miss)%Q -> (0 < c_fa)%Q ->
  let e := effective_prior p c_miss c_fa in (0 < e /\ e < 1)%Q /\
  forall m f, (p * c_miss * m + (1 - p) * c_fa * f == (p * c_miss + (1 - p) * c_fa) * cost e false m f)%Q.
Proof.
  intros p cm cf P1 P2 C1 C2 e. assert (T1 : (0 < p * cm)%Q) by (apply Qmult_lt_0_compat; assumption). assert (T2 : (0 < (1 - p) * cf)%Q) by (apply Qmult_lt_0_compat; lra).
  assert (E : (e == p * cm / (p * cm + (1 - p) * cf))%Q). { unfold e, effective_prior. field. repeat split; lra. }
  split; [split|].
  - rewrite E. apply Qlt_shift_div_l; lra.
  - rewrite E. apply Qlt_shift_div_r; lra.
  - intros m f. unfold cost. rewrite E. field. lra.
Qed.

Example C37_dcf_witness :
  (exists d m f, compute_min_dcf [0; 2; 5; 7]%Z [1; -3; 4; -5]%Z (1 # 4)%Q true = Ok (d, m, f) /\ (d == 1 # 2)%Q) /\
  (exists act pm pf, compute_act_dcf (fun p => - Qnum p)%Z [0; 2; 5; 7]%Z [1; -3; 4; -5]%Z [-4 # 1; -1 # 1]%Q false = Ok (act, pm, pf) /\ Forall2 Qeq pm [2 # 4; 1 # 4]%Q /\ Forall2 Qeq pf [1 # 4; 2 # 4]%Q).
Proof.
  split; eexists _, _, _; (split; [vm_compute; reflexivity|]); [reflexivity|]. split; repeat constructor.
Qed.
Print Assumptions C37_min_dcf. Print Assumptions C37_act_dcf. Print Assumptions C37_act_dcf_repeated_refuted. Print Assumptions C37_fast_eval. Print Assumptions C37_effective_prior.
