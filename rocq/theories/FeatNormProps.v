(** Short-time mean and variance normalisation. *)
From Coq Require Import Reals Lra Lia.
From Verif Require Import BaseFacts ScoreNorm ScoreNormProps Mat MatProofs FeatNorm.
Open Scope list_scope.
Open Scope R_scope.

(** ** Specification *)
(** the frames between i - left and i + right that exist *)
Definition window (left right : nat) (x : list R) (i : nat) : list R := firstn (Nat.min (i + right + 1) (List.length x) - (i - left)) (skipn (i - left) x).
(** one normalised frame *)
Definition norm_frame (o : mvn) (v : R) (w : list R) : R := (v - (if norm_mean o then mean_of w else 0)) / (if norm_var o then Rmax (sqrt (/ 100000)) (dev_of w) else 1).
Definition global_spec (o : mvn) (x : list R) : list R :=
  map (fun v => (v - (if norm_mean o then mean_of x else 0)) / (if norm_var o then dev_of x else 1)) x.
Definition short_time_spec (o : mvn) (l r : nat) (x : list R) : list R := map (fun i => norm_frame o (nth i x 0) (window l r x i)) (seq 0 (List.length x)).
Definition norm_spec (o : mvn) (x : list R) : list R :=
  let g := global_spec o x in
  match left_context o, right_context o with None, None => g | lc, rc => short_time_spec o (ctx lc (List.length x)) (ctx rc (List.length x)) g end.

(** ** Lists as functions of the frame *)
Lemma oall_some {A B} (f : A -> option B) (g : A -> B) l : (forall x, In x l -> f x = Some (g x)) -> oall (map f l) = Some (map g l).
Proof. induction l as [|x l IH]; intros H; [reflexivity|]. cbn. rewrite (H x (or_introl eq_refl)). cbn. rewrite IH by (intros y I; apply H; right; exact I). reflexivity. Qed.
Lemma zip_map {A B C D} (h : B -> C -> D) (f : A -> B) (g : A -> C) l : zip_with h (map f l) (map g l) = map (fun x => h (f x) (g x)) l.
Proof. induction l as [|x l IH]; [reflexivity|]. cbn. f_equal. exact IH. Qed.
Lemma as_seq (x : list R) : x = map (fun i => nth i x 0) (seq 0 (List.length x)).
Proof.
  apply nth_error_ext. intros i. rewrite nth_error_map. destruct (Nat.ltb_spec i (List.length x)) as [L|L].
  - rewrite (nth_error_nth' x 0 L), (nth_error_nth' (seq 0 (List.length x)) O) by (rewrite seq_length; exact L). rewrite seq_nth by exact L. reflexivity.
  - rewrite (proj2 (nth_error_None _ _) L). rewrite (proj2 (nth_error_None (seq 0 (List.length x)) i)) by (rewrite seq_length; exact L). reflexivity.
Qed.
Lemma zip_lmap {B D} (h : R -> B -> D) (x : list R) (g : nat -> B) : zip_with h x (map g (seq 0 (List.length x))) = map (fun i => h (nth i x 0) (g i)) (seq 0 (List.length x)).
Proof. rewrite (as_seq x) at 1. apply zip_map. Qed.

(** prefix sums *)
Definition ps (x : list R) (k : nat) : R := Rsum (firstn k x).
Lemma Rsum_app a b : Rsum (a ++ b) = Rsum a + Rsum b.
Proof. induction a as [|v a IH]; [change (Rsum [] ) with 0; cbn [app]; lra|]. change (v + Rsum (a ++ b) = v + Rsum a + Rsum b). rewrite IH. lra. Qed.
Lemma ps_diff x a b : (a <= b)%nat -> ps x b - ps x a = Rsum (firstn (b - a) (skipn a x)).
Proof.
  intros L. unfold ps. replace (firstn b x) with (firstn a x ++ firstn (b - a) (skipn a x)); [rewrite Rsum_app; lra|].
  rewrite <- (firstn_skipn a (firstn b x)), firstn_firstn, Nat.min_l by exact L. f_equal. symmetry. apply skipn_firstn_comm.
Qed.
Lemma rcumsum_ps x : forall acc, rcumsum acc x = map (fun k => acc + ps x (S k)) (seq 0 (List.length x)).
Proof.
  induction x as [|v x IH]; intros acc; [reflexivity|]. cbn [rcumsum List.length seq map]. f_equal; [unfold ps; cbn; lra|]. rewrite IH, <- seq_shift, map_map. apply map_ext. intros k. unfold ps. cbn [firstn Rsum fold_right]. lra.
Qed.
Lemma set_slice_map (f g : nat -> R) N i m : (i + m <= N)%nat ->
  set_slice (map f (seq 0 N)) i (map g (seq i m)) = map (fun p => if (p <? i)%nat then f p else if (p <? i + m)%nat then g p else f p) (seq 0 N).
Proof.
  intros L. unfold set_slice. rewrite map_length, seq_length. apply nth_error_ext. intros p. rewrite nth_error_map.
  assert (NS : forall s k q, nth_error (seq s k) q = if (q <? k)%nat then Some (s + q)%nat else None). { intros s k q. destruct (Nat.ltb_spec q k) as [Q|Q]; [rewrite (nth_error_nth' _ O) by (rewrite seq_length; exact Q); rewrite seq_nth by exact Q; reflexivity|apply nth_error_None; rewrite seq_length; exact Q]. }
  assert (LF : List.length (firstn i (map f (seq 0 N))) = i) by (rewrite firstn_length, map_length, seq_length; lia).
  destruct (Nat.ltb_spec p i) as [P|P].
  - rewrite nth_error_app1 by lia. rewrite nth_error_firstn, (proj2 (Nat.ltb_lt _ _) P), nth_error_map. rewrite NS. rewrite (proj2 (Nat.ltb_lt p N)) by lia. cbn [option_map Nat.add]. rewrite (proj2 (Nat.ltb_lt _ _) P). reflexivity.
  - rewrite nth_error_app2 by lia. rewrite LF. destruct (Nat.ltb_spec p (i + m)) as [Q|Q].
    + rewrite nth_error_app1 by (rewrite map_length, seq_length; lia). rewrite nth_error_map, !NS. rewrite (proj2 (Nat.ltb_lt (p - i) m)) by lia. rewrite (proj2 (Nat.ltb_lt p N)) by lia. cbn [option_map]. change (0 + p)%nat with p. rewrite (proj2 (Nat.ltb_ge _ _) P), (proj2 (Nat.ltb_lt _ _) Q). do 2 f_equal. lia.
    + rewrite nth_error_app2 by (rewrite map_length, seq_length; lia). rewrite map_length, seq_length, nth_error_skipn, nth_error_map, !NS. replace (i + m + (p - i - m))%nat with p by lia. destruct (Nat.ltb_spec p N) as [W|W]; cbn [option_map]; [|reflexivity]. change (0 + p)%nat with p. rewrite (proj2 (Nat.ltb_ge _ _) P), (proj2 (Nat.ltb_ge _ _) Q). reflexivity.
Qed.
Lemma repeat_map (c : R) n : forall s, repeat c n = map (fun _ => c) (seq s n).
Proof. induction n as [|n IH]; intros s; [reflexivity|]. cbn. f_equal. apply IH. Qed.
Lemma shift_seq (g : nat -> R) s n : map g (seq s n) = map (fun k => g (s + k)%nat) (seq 0 n).
Proof. revert s. induction n as [|n IH]; intros s; [reflexivity|]. cbn. rewrite Nat.add_0_r. f_equal. rewrite (IH (S s)), <- seq_shift, map_map. apply map_ext. intros k. f_equal. lia. Qed.
(** the padded cumulative sums: prefix sums with the index clipped to the signal *)
Lemma padded_shape n l T (x : list R) vals last : (l + 1 <= T)%nat -> List.length x = n -> vals = map (fun k => ps x (S k)) (seq 0 n) -> last = ps x n ->
  set_slice (set_slice (repeat 0 (n + T)) (l + 1) vals) (l + n + 1) (repeat last (T - l - 1)) = map (fun p => ps x (Nat.min (p - l) n)) (seq 0 (n + T)).
Proof.
  intros L N -> ->. rewrite (repeat_map 0 (n + T) 0). replace (map (fun k => ps x (S k)) (seq 0 n)) with (map (fun p => ps x (p - l)) (seq (l + 1) n)). 2: { rewrite shift_seq. apply map_ext. intros k. f_equal. lia. }
  rewrite set_slice_map by lia. rewrite (repeat_map (ps x n) (T - l - 1) (l + n + 1)). rewrite set_slice_map by lia. apply map_ext_in. intros p I. apply in_seq in I.
  destruct (Nat.ltb_spec p (l + n + 1)) as [P|P].
  - destruct (Nat.ltb_spec p (l + 1)) as [Q|Q].
    + replace (p - l)%nat with O by lia. reflexivity.
    + rewrite (proj2 (Nat.ltb_lt p (l + 1 + n))) by lia. rewrite Nat.min_l by lia. reflexivity.
  - rewrite (proj2 (Nat.ltb_lt p (l + n + 1 + (T - l - 1)))) by lia. rewrite Nat.min_r by lia. reflexivity.
Qed.
Lemma padded_cumsum_ps n l T x : (0 < n)%nat -> (l + 1 <= T)%nat -> List.length x = n -> padded_cumsum n l T x = map (fun p => ps x (Nat.min (p - l) n)) (seq 0 (n + T)).
Proof.
  intros N0 L N. unfold padded_cumsum. cbv zeta. apply padded_shape; [exact L|exact N| |].
  - rewrite rcumsum_ps, N. apply map_ext. intros k. lra.
  - rewrite rcumsum_ps, N. rewrite (repeat_map 0 (n + T) 0). replace (map (fun k => 0 + ps x (S k)) (seq 0 n)) with (map (fun p => ps x (p - l)) (seq (l + 1) n)). 2: { rewrite shift_seq. apply map_ext. intros k. rewrite Rplus_0_l. f_equal. lia. }
    rewrite set_slice_map by lia. rewrite (nth_indep _ 0 ((fun p => if (p <? l + 1)%nat then 0 else if (p <? l + 1 + n)%nat then ps x (p - l) else 0) O)) by (rewrite map_length, seq_length; lia). rewrite (map_nth (fun p => if (p <? l + 1)%nat then 0 else if (p <? l + 1 + n)%nat then ps x (p - l) else 0)). rewrite seq_nth by lia. cbn [Nat.add]. rewrite (proj2 (Nat.ltb_ge (l + n) (l + 1))) by lia. rewrite (proj2 (Nat.ltb_lt (l + n) (l + 1 + n))) by lia. f_equal. lia.
Qed.
Lemma ps_ones n k : (k <= n)%nat -> ps (repeat 1 n) k = INR k.
Proof. unfold ps. revert k. induction n as [|n IH]; intros [|k] L; try reflexivity; [lia|]. cbn [repeat firstn Rsum fold_right]. fold (Rsum (firstn k (repeat 1 n))). rewrite IH by lia. rewrite S_INR. lra. Qed.
Lemma padded_counts_ps n l T : (l + 1 <= T)%nat -> padded_counts n l T = map (fun p => ps (repeat 1 n) (Nat.min (p - l) n)) (seq 0 (n + T)).
Proof.
  intros L. unfold padded_counts. cbv zeta. apply padded_shape; [exact L|apply repeat_length| |symmetry; apply ps_ones; lia].
  rewrite shift_seq. apply map_ext_in. intros k I. apply in_seq in I. rewrite ps_ones by lia. reflexivity.
Qed.
Lemma lag_diff_map (f : nat -> R) n T : lag_diff T (map f (seq 0 (n + T))) = map (fun i => f (i + T)%nat - f i) (seq 0 n).
Proof.
  unfold lag_diff. rewrite map_length, seq_length. replace (n + T - T)%nat with n by lia.
  rewrite skipn_map, firstn_map. replace (skipn T (seq 0 (n + T))) with (seq T n). 2: { rewrite Nat.add_comm, seq_app. rewrite skipn_app, skipn_all2 by (rewrite seq_length; lia). rewrite seq_length, Nat.sub_diag. reflexivity. }
  replace (firstn n (seq 0 (n + T))) with (seq 0 n). 2: { rewrite seq_app, firstn_app, firstn_all2 by (rewrite seq_length; lia). rewrite seq_length, Nat.sub_diag. cbn. rewrite app_nil_r. reflexivity. }
  rewrite (shift_seq f T n), zip_map. apply map_ext. intros i. do 2 f_equal. lia.
Qed.
(** the windowed sums by cumulative sums *)
Lemma lag_sum x l r : let n := List.length x in (0 < n)%nat -> map (fun i => ps x (Nat.min (i + (l + r + 1) - l) n) - ps x (Nat.min (i - l) n)) (seq 0 n) = map (fun i => Rsum (window l r x i)) (seq 0 n).
Proof.
  intros n N. apply map_ext_in. intros i I. apply in_seq in I. replace (i + (l + r + 1) - l)%nat with (i + r + 1)%nat by lia. rewrite (Nat.min_l (i - l) n) by lia. rewrite ps_diff by (unfold n in *; lia). reflexivity.
Qed.
Lemma cumsum_windows x l r : let n := List.length x in (0 < n)%nat -> lag_diff (l + r + 1) (padded_cumsum n l (l + r + 1) x) = map (fun i => Rsum (window l r x i)) (seq 0 n).
Proof. intros n N. rewrite padded_cumsum_ps by (unfold n in *; lia). rewrite lag_diff_map. apply (lag_sum x l r N). Qed.
Lemma counts_windows n l r : (0 < n)%nat -> lag_diff (l + r + 1) (padded_counts n l (l + r + 1)) = map (fun i => INR (Nat.min (i + r + 1) n - (i - l))) (seq 0 n).
Proof.
  intros N. rewrite padded_counts_ps by lia. rewrite lag_diff_map. apply map_ext_in. intros i I. apply in_seq in I. rewrite !ps_ones by lia. rewrite <- minus_INR by lia. f_equal. lia.
Qed.
Lemma window_length l r x i : (i < List.length x)%nat -> List.length (window l r x i) = (Nat.min (i + r + 1) (List.length x) - (i - l))%nat.
Proof. intros L. unfold window. rewrite firstn_length, skipn_length. lia. Qed.
Lemma window_map f l r x i : window l r (map f x) i = map f (window l r x i).
Proof. unfold window. rewrite map_length, skipn_map, firstn_map. reflexivity. Qed.

(** ** From the sums to the frames *)
Lemma Rmax_sqrt a b : 0 <= a -> 0 <= b -> sqrt (Rmax a b) = Rmax (sqrt a) (sqrt b).
Proof. intros A B. unfold Rmax. destruct (Rle_dec a b) as [L|L], (Rle_dec (sqrt a) (sqrt b)) as [M|M]; try reflexivity; exfalso; [apply M, sqrt_le_1; assumption|apply L, sqrt_le_0; assumption]. Qed.
Lemma floor_var_max v : floor_var v = Rmax var_floor v.
Proof. unfold floor_var, Rmax. destruct (Rlt_dec v var_floor), (Rle_dec var_floor v); try reflexivity; lra. Qed.
Lemma var_floor_pos : 0 < var_floor.
Proof. unfold var_floor. lra. Qed.
Lemma dev_alt w : w <> [] -> Rsum (map Rsqr w) / INR (List.length w) - (mean_of w)² = (dev_of w)².
Proof.
  intros N. unfold dev_of. rewrite Rsqr_sqrt by (apply dev_nonneg; exact N). rewrite (dev_sum w N). pose proof (len_pos w N). field. lra.
Qed.
Lemma dev_pos w : 0 <= dev_of w. Proof. apply sqrt_pos. Qed.
Lemma floor_dev w : w <> [] -> sqrt (floor_var (Rsum (map Rsqr w) / INR (List.length w) - (mean_of w)²)) = Rmax (sqrt var_floor) (dev_of w).
Proof.
  intros N. rewrite floor_var_max, dev_alt by exact N. pose proof var_floor_pos. rewrite Rmax_sqrt; [|lra|apply Rle_0_sqr]. rewrite sqrt_Rsqr by apply dev_pos. reflexivity.
Qed.
Lemma odiv_ok a b : b <> 0 -> odiv a b = Some (a / b).
Proof. intros N. unfold odiv. destruct (Req_EM_T b 0); [contradiction|reflexivity]. Qed.
Lemma norm_den w : 0 < Rmax (sqrt var_floor) (dev_of w).
Proof. eapply Rlt_le_trans; [apply sqrt_lt_R0, var_floor_pos|apply Rmax_l]. Qed.

Lemma finish_spec o x l r : (0 < List.length x)%nat ->
  finish o x (map (fun i => Rsum (window l r x i)) (seq 0 (List.length x))) (map (fun i => Rsum (map Rsqr (window l r x i))) (seq 0 (List.length x))) (map (fun i => INR (List.length (window l r x i))) (seq 0 (List.length x))) = Some (short_time_spec o l r x).
Proof.
  intros N. assert (WN : forall i, In i (seq 0 (List.length x)) -> window l r x i <> []). { intros i I E. apply in_seq in I. pose proof (window_length l r x i ltac:(lia)) as W. rewrite E in W. cbn in W. lia. }
  unfold finish. rewrite zip_map. rewrite (oall_some _ (fun i => mean_of (window l r x i))) by (intros i I; apply odiv_ok; pose proof (len_pos _ (WN i I)); lra). cbn [obind]. unfold short_time_spec, norm_frame. destruct (norm_var o) eqn:NV.
  - rewrite zip_map. rewrite (oall_some _ (fun i => Rsum (map Rsqr (window l r x i)) / INR (List.length (window l r x i)))) by (intros i I; apply odiv_ok; pose proof (len_pos _ (WN i I)); lra). cbn [obind]. rewrite map_map, zip_map, map_map.
    replace (if norm_mean o then zip_with Rminus x (map (fun i => mean_of (window l r x i)) (seq 0 (List.length x))) else x) with (map (fun i => nth i x 0 - (if norm_mean o then mean_of (window l r x i) else 0)) (seq 0 (List.length x))).
    2: { destruct (norm_mean o); [rewrite zip_lmap; reflexivity|]. transitivity (map (fun i => nth i x 0) (seq 0 (List.length x))); [apply map_ext; intros i; lra|symmetry; apply as_seq]. }
    rewrite zip_map. apply oall_some. intros i I. rewrite floor_dev by (apply WN; exact I). apply odiv_ok. pose proof (norm_den (window l r x i)). unfold var_floor in *. lra.
  - f_equal. destruct (norm_mean o); [rewrite zip_lmap; apply map_ext; intros i; field|]. rewrite (as_seq x) at 1. apply map_ext. intros i. field.
Qed.

(** the windowed sums by convolution *)
Lemma nth_ones T k : nth k (repeat 1 T) 0 = if (k <? T)%nat then 1 else 0.
Proof. destruct (Nat.ltb_spec k T) as [L|L]; [|apply nth_overflow; rewrite repeat_length; exact L]. rewrite (nth_indep _ 0 1) by (rewrite repeat_length; exact L). apply nth_repeat. Qed.
Lemma firstn_as_seq (x : list R) a m : (a + m <= List.length x)%nat -> firstn m (skipn a x) = map (fun j => nth j x 0) (seq a m).
Proof.
  intros L. rewrite (as_seq x) at 1. rewrite skipn_map, firstn_map. f_equal. replace (List.length x) with (a + (m + (List.length x - a - m)))%nat by lia. rewrite seq_app, skipn_app, skipn_all2 by (rewrite seq_length; lia). rewrite seq_length, Nat.sub_diag. cbn [app skipn]. rewrite seq_app, firstn_app, firstn_all2 by (rewrite seq_length; lia). rewrite seq_length, Nat.sub_diag. cbn. apply app_nil_r.
Qed.
Lemma conv_windows x l r : let n := List.length x in (0 < n)%nat -> slice r n (conv x (repeat 1 (l + r + 1))) = map (fun i => Rsum (window l r x i)) (seq 0 n).
Proof.
  intros n N. unfold slice, conv. rewrite repeat_length. fold n. rewrite skipn_map, firstn_map. replace (firstn n (skipn r (seq 0 (n + (l + r + 1) - 1)))) with (seq r n).
  2: { replace (n + (l + r + 1) - 1)%nat with (r + (n + l))%nat by lia. rewrite seq_app, skipn_app, skipn_all2 by (rewrite seq_length; lia). rewrite seq_length, Nat.sub_diag. cbn [app skipn]. rewrite seq_app, firstn_app, firstn_all2 by (rewrite seq_length; lia). rewrite seq_length, Nat.sub_diag. cbn. symmetry. apply app_nil_r. }
  rewrite shift_seq. apply map_ext_in. intros i I. apply in_seq in I. set (k := (r + i)%nat). unfold window. fold n. replace (Nat.min (i + r + 1) n) with (Nat.min (k + 1) n) by (unfold k; lia). set (m := Nat.min (k + 1) n). assert (AM : (i - l <= m)%nat) by (unfold m, k; lia).
  rewrite firstn_as_seq by (unfold m, n in *; lia). replace m with ((i - l) + (m - (i - l)))%nat at 1 by lia. rewrite seq_app, map_app, Rsum_app. cbn [Nat.add].
  rewrite (Rsum_ext _ (fun _ => 0) (seq 0 (i - l))). 2: { intros j J. apply in_seq in J. rewrite nth_ones. rewrite (proj2 (Nat.ltb_ge (k - j) (l + r + 1))) by (unfold k; lia). lra. }
  rewrite Rsum_const, Rmult_0_l, Rplus_0_l. apply Rsum_ext. intros j J. apply in_seq in J. rewrite nth_ones. rewrite (proj2 (Nat.ltb_lt (k - j) (l + r + 1))) by (unfold k, m in *; lia). lra.
Qed.

(** ** Global normalisation *)
Definition usable (o : mvn) (x : list R) : Prop := x <> [] /\ (norm_var o = true -> dev_of x <> 0).
Lemma global_ok o x : usable o x -> normalize_global o x = Some (global_spec o x).
Proof.
  intros (N & V). unfold normalize_global, global_spec. assert (E : obind (mean x) (fun m => Some (map (fun v => v - m) x)) = Some (map (fun v => 1 * v + - mean_of x) x)) by (rewrite mean_ok by exact N; cbn; f_equal; apply map_ext; intros v; lra).
  destruct (norm_mean o).
  - rewrite E. cbn [obind]. destruct (norm_var o).
    + rewrite std_ok by (destruct x; [contradiction|discriminate]). cbn [obind]. rewrite dev_affine by (try exact N; lra). rewrite Rmult_1_l. rewrite map_map. apply oall_some. intros v I. rewrite odiv_ok by (apply V; reflexivity). f_equal. f_equal. lra.
    + f_equal. apply map_ext. intros v. field.
  - cbn [obind]. destruct (norm_var o).
    + rewrite std_ok by exact N. cbn [obind]. apply oall_some. intros v I. rewrite odiv_ok by (apply V; reflexivity). f_equal. f_equal. lra.
    + f_equal. rewrite <- (map_id x) at 1. apply map_ext. intros v. field.
Qed.
Lemma global_stats o x : usable o x -> (norm_mean o = true -> mean_of (global_spec o x) = 0) /\ (norm_var o = true -> dev_of (global_spec o x) = 1).
Proof.
  intros (N & V). unfold global_spec. set (m := if norm_mean o then mean_of x else 0). set (s := if norm_var o then dev_of x else 1). assert (S0 : s <> 0) by (unfold s; destruct (norm_var o); [apply V; reflexivity|lra]).
  replace (map (fun v => (v - m) / s) x) with (map (fun v => / s * v + - (m / s)) x) by (apply map_ext; intros v; field; exact S0). split; intros H.
  - rewrite mean_affine by exact N. unfold m. rewrite H. field. exact S0.
  - assert (P : 0 < dev_of x) by (destruct (dev_pos x) as [P|P]; [exact P|exfalso; apply (V H); symmetry; exact P]). assert (SE : s = dev_of x) by (unfold s; rewrite H; reflexivity). rewrite dev_affine; [|apply Rlt_le, Rinv_0_lt_compat; lra|exact N]. rewrite SE. field. lra.
Qed.
(** Without contexts the output is the global normalisation: zero mean and unit variance. *)
Theorem C46_global : forall nm nv x, let o := mk_mvn nm nv None None in usable o x ->
  normalize o x = Some (global_spec o x) /\ (nm = true -> mean_of (global_spec o x) = 0) /\ (nv = true -> dev_of (global_spec o x) = 1).
Proof. intros nm nv x o U. split; [|apply (global_stats o x U)]. unfold normalize, normalize_cumsum. rewrite (global_ok o x U). reflexivity. Qed.

(** a signal inside every window is left as it is by the short-time pass *)
Lemma covered o l r x : usable o x -> (List.length x <= Nat.min r l + 1)%nat -> short_time_spec o l r (global_spec o x) = global_spec o x.
Proof.
  intros U L. set (g := global_spec o x). assert (GL : List.length g = List.length x) by (unfold g, global_spec; apply map_length). destruct (global_stats o x U) as (M & D). fold g in M, D.
  unfold short_time_spec. transitivity (map (fun i => nth i g 0) (seq 0 (List.length g))); [|symmetry; apply as_seq]. apply map_ext_in. intros i I. apply in_seq in I.
  assert (W : window l r g i = g). { unfold window. replace (i - l)%nat with O by lia. cbn [skipn]. apply firstn_all2. lia. } rewrite W. unfold norm_frame. fold g.
  replace (if norm_mean o then mean_of g else 0) with 0 by (destruct (norm_mean o); [symmetry; apply M; reflexivity|reflexivity]).
  replace (if norm_var o then Rmax (sqrt (/ 100000)) (dev_of g) else 1) with 1; [field|]. destruct (norm_var o); [|reflexivity]. rewrite D by reflexivity. symmetry. apply Rmax_right. eapply Rle_trans; [apply (sqrt_le_1 (/ 100000) 1); lra|rewrite sqrt_1; lra].
Qed.

(** ** The three implementations give, frame by frame, the globally normalised value minus the mean of the existing frames between
    i - left and i + right, divided by their standard deviation (floored). *)
Theorem C46_norm : forall o x, usable o x ->
  normalize o x = Some (norm_spec o x) /\ normalize_cumsum o x = Some (norm_spec o x) /\ normalize_conv o x = Some (norm_spec o x) /\ normalize_slow o x = Some (norm_spec o x).
Proof.
  intros o x U. assert (G : normalize_global o x = Some (global_spec o x)) by (apply global_ok; exact U). set (g := global_spec o x) in *. assert (GL : List.length g = List.length x) by (unfold g, global_spec; apply map_length).
  assert (N : (0 < List.length g)%nat) by (rewrite GL; destruct U as (N & _); destruct x; [contradiction|cbn; lia]).
  assert (CNT : forall l r, map (fun i => INR (Nat.min (i + r + 1) (List.length g) - (i - l))) (seq 0 (List.length g)) = map (fun i => INR (List.length (window l r g i))) (seq 0 (List.length g))) by (intros l r; apply map_ext_in; intros i I; apply in_seq in I; rewrite window_length by lia; reflexivity).
  assert (SQ : forall l r, map (fun i => Rsum (window l r (map Rsqr g) i)) (seq 0 (List.length g)) = map (fun i => Rsum (map Rsqr (window l r g i))) (seq 0 (List.length g))) by (intros l r; apply map_ext; intros i; rewrite window_map; reflexivity).
  assert (C : normalize_cumsum o x = Some (norm_spec o x)).
  { unfold normalize_cumsum, norm_spec. rewrite G. fold g. cbn [obind]. rewrite <- GL. cbv zeta. assert (K : forall l r, (if (List.length g <=? Nat.min r l + 1)%nat then Some g else finish o g (lag_diff (l + r + 1) (padded_cumsum (List.length g) l (l + r + 1) g)) (lag_diff (l + r + 1) (padded_cumsum (List.length g) l (l + r + 1) (map Rsqr g))) (lag_diff (l + r + 1) (padded_counts (List.length g) l (l + r + 1)))) = Some (short_time_spec o l r g)).
    { intros l r. destruct (Nat.leb_spec (List.length g) (Nat.min r l + 1)) as [L|L]; [f_equal; symmetry; apply covered; [exact U|rewrite <- GL; exact L]|]. rewrite (cumsum_windows g l r N), counts_windows by exact N. pose proof (cumsum_windows (map Rsqr g) l r) as Q. rewrite map_length in Q. rewrite (Q N). rewrite CNT, SQ. apply finish_spec. exact N. }
    destruct (left_context o), (right_context o); try apply K; reflexivity. }
  split; [exact C|]. split; [exact C|]. split.
  - unfold normalize_conv, norm_spec. rewrite G. fold g. cbn [obind]. rewrite <- GL. cbv zeta. assert (K : forall l r, (if (List.length g <=? Nat.min r l + 1)%nat then Some g else finish o g (slice r (List.length g) (conv g (repeat 1 (l + r + 1)))) (slice r (List.length g) (conv (map Rsqr g) (repeat 1 (l + r + 1)))) (slice r (List.length g) (conv (repeat 1 (List.length g)) (repeat 1 (l + r + 1))))) = Some (short_time_spec o l r g)).
    { intros l r. destruct (Nat.leb_spec (List.length g) (Nat.min r l + 1)) as [L|L]; [f_equal; symmetry; apply covered; [exact U|rewrite <- GL; exact L]|]. rewrite (conv_windows g l r N). pose proof (conv_windows (map Rsqr g) l r) as Q. rewrite map_length in Q. rewrite (Q N). pose proof (conv_windows (repeat 1 (List.length g)) l r) as Q1. rewrite repeat_length in Q1. rewrite (Q1 N).
      replace (map (fun i => Rsum (window l r (repeat 1 (List.length g)) i)) (seq 0 (List.length g))) with (map (fun i => INR (List.length (window l r g i))) (seq 0 (List.length g))). 2: { apply map_ext_in. intros i I. apply in_seq in I. replace (repeat 1 (List.length g)) with (map (fun _ : R => 1) g) by (clear; induction g as [|v g' IH]; [reflexivity|cbn; f_equal; exact IH]). rewrite window_map, Rsum_const. lra. }
      rewrite SQ. apply finish_spec. exact N. }
    destruct (left_context o), (right_context o); try apply K; reflexivity.
  - unfold normalize_slow, norm_spec. rewrite G. fold g. cbn [obind]. rewrite <- GL. cbv zeta.
    assert (K : forall l r, obind (oall (map (fun i => mean (firstn (Nat.min (i + r) (List.length g - 1) + 1 - (i - l)) (skipn (i - l) g))) (seq 0 (List.length g)))) (fun m => obind (oall (map (fun i => std (firstn (Nat.min (i + r) (List.length g - 1) + 1 - (i - l)) (skipn (i - l) g))) (seq 0 (List.length g)))) (fun s =>
      if norm_var o then oall (zip_with odiv (if norm_mean o then zip_with Rminus g m else g) (map (fun v => if Rlt_dec v (sqrt var_floor) then sqrt var_floor else v) s)) else Some (if norm_mean o then zip_with Rminus g m else g))) = Some (short_time_spec o l r g)).
    { intros l r. assert (WE : forall i, In i (seq 0 (List.length g)) -> firstn (Nat.min (i + r) (List.length g - 1) + 1 - (i - l)) (skipn (i - l) g) = window l r g i) by (intros i I; apply in_seq in I; unfold window; f_equal; lia).
      assert (WN : forall i, In i (seq 0 (List.length g)) -> window l r g i <> []). { intros i I E. apply in_seq in I. pose proof (window_length l r g i ltac:(lia)) as W. rewrite E in W. cbn in W. lia. }
      rewrite (oall_some _ (fun i => mean_of (window l r g i))) by (intros i I; rewrite WE by exact I; apply mean_ok, WN; exact I). cbn [obind]. rewrite (oall_some _ (fun i => dev_of (window l r g i))) by (intros i I; rewrite WE by exact I; apply std_ok, WN; exact I). cbn [obind].
      replace (if norm_mean o then zip_with Rminus g (map (fun i => mean_of (window l r g i)) (seq 0 (List.length g))) else g) with (map (fun i => nth i g 0 - (if norm_mean o then mean_of (window l r g i) else 0)) (seq 0 (List.length g))).
      2: { destruct (norm_mean o); [rewrite zip_lmap; reflexivity|]. transitivity (map (fun i => nth i g 0) (seq 0 (List.length g))); [apply map_ext; intros i; lra|symmetry; apply as_seq]. }
      unfold short_time_spec, norm_frame. destruct (norm_var o).
      - rewrite map_map, zip_map. apply oall_some. intros i I. replace (if Rlt_dec (dev_of (window l r g i)) (sqrt var_floor) then sqrt var_floor else dev_of (window l r g i)) with (Rmax (sqrt var_floor) (dev_of (window l r g i))); [apply odiv_ok; pose proof (norm_den (window l r g i)); unfold var_floor in *; lra|]. unfold Rmax. destruct (Rlt_dec _ _) as [A|A], (Rle_dec _ _) as [B|B]; try reflexivity; lra.
      - f_equal. apply map_ext. intros i. field. }
    destruct (left_context o), (right_context o); try apply K; reflexivity.
Qed.

(** Adding an offset to the features changes nothing when the mean is normalised; scaling by a positive factor changes nothing when the
    variance is. *)
Theorem C46_invariance : forall o a b x, usable o x -> (b <> 0 -> norm_mean o = true) -> (a <> 1 -> 0 < a /\ norm_var o = true) -> normalize o (map (fun v => a * v + b) x) = normalize o x.
Proof.
  intros o a b x U B A. destruct U as (N & V). assert (A0 : 0 < a) by (destruct (Req_dec a 1) as [->|Q]; [lra|apply A; exact Q]). set (y := map (fun v => a * v + b) x).
  assert (D : dev_of y = a * dev_of x) by (unfold y; apply dev_affine; [lra|exact N]). assert (M : mean_of y = a * mean_of x + b) by (unfold y; apply mean_affine; exact N).
  assert (U : usable o x) by (split; assumption). assert (Uy : usable o y). { split; [unfold y; destruct x; [contradiction|discriminate]|]. intros H. rewrite D. specialize (V H). apply Rmult_integral_contrapositive. split; [lra|exact V]. }
  rewrite (proj1 (C46_norm o x U)), (proj1 (C46_norm o y Uy)). assert (LY : List.length y = List.length x) by (unfold y; apply map_length).
  assert (E : global_spec o y = global_spec o x). { unfold global_spec. rewrite M, D. unfold y. rewrite map_map. apply map_ext. intros v. destruct (norm_mean o) eqn:NM, (norm_var o) eqn:NV.
    - field. split; [apply V; reflexivity|lra].
    - destruct (Req_dec a 1) as [->|Q]; [field|destruct (A Q); discriminate].
    - destruct (Req_dec b 0) as [->|Q]; [|specialize (B Q); discriminate]. field. split; [apply V; reflexivity|lra].
    - destruct (Req_dec b 0) as [->|Q]; [|specialize (B Q); discriminate]. destruct (Req_dec a 1) as [->|Q]; [field|destruct (A Q); discriminate]. }
  unfold norm_spec. rewrite E, LY. reflexivity.
Qed.
Print Assumptions C46_norm. Print Assumptions C46_invariance.

Example C46_witness : let o := mk_mvn true false (Some 1%nat) (Some 1%nat) in usable o [1; 2; 6] /\ norm_spec o [1; 2; 6] = [-1/2; -1; 2].
Proof.
  split; [split; [discriminate|discriminate]|]. unfold norm_spec, short_time_spec, global_spec, norm_frame, window, mean_of. cbn [norm_mean norm_var left_context right_context ctx List.length seq map Nat.add Nat.sub Nat.min skipn firstn nth Rsum fold_right INR]. f_equal; [field|f_equal; [field|f_equal; field]].
Qed.
